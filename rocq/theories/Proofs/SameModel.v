From Coq Require Import ZArith String Lia.
From Verif Require Import Proofs.Arrays Spec.SameModelSpec Spec.SingleTypeSpec Spec.Energy Spec.GraphSpec Proofs.SymProofs Proofs.GraphCRFProofs
  Proofs.EdgeFeatureProofs Proofs.EdgeFeatureProofs2 Proofs.SingleType Proofs.SingleType2 Model.Inference.
#[local] Open Scope nat_scope.

Lemma mapM_index_err (y l : list nat) : ~ Forall (fun i => i < length y) l -> mapM (index y) l = Err IndexError.
Proof.
  induction l as [|i l IH]; intro H; [exfalso; apply H; constructor|]. cbn [mapM].
  destruct (Nat.lt_ge_cases i (length y)) as [L|L].
  - rewrite (index_ok y i 0 L). cbn [bind]. rewrite IH; [reflexivity|]. intro F. apply H. constructor; assumption.
  - rewrite index_err by exact L. reflexivity.
Qed.
Lemma edges_dec n (es : list (nat * nat)) :
  {graph_edges n es} + {~ Forall (fun i => i < n) (map fst es) \/ ~ Forall (fun i => i < n) (map snd es)}.
Proof.
  destruct (forallb (fun i => i <? n) (map fst es)) eqn:A, (forallb (fun i => i <? n) (map snd es)) eqn:B.
  - left. apply forallb_lt_Forall in A. apply forallb_lt_Forall in B. rewrite Forall_forall in *. unfold graph_edges. apply Forall_forall.
    intros e He. split; [apply A|apply B]; apply in_map; exact He.
  - right. right. intro F. apply forallb_lt_Forall in F. congruence.
  - right. left. intro F. apply forallb_lt_Forall in F. congruence.
  - right. left. intro F. apply forallb_lt_Forall in F. congruence.
Qed.
Lemma g_um k n es y um pw : g_marginals k n es (Discrete y) = Ok (um, pw) -> one_hot k y = Ok um.
Proof.
  unfold g_marginals. destruct (length y =? n); [|discriminate]. cbn [ensure bind]. destruct (one_hot k y) as [u|]; [|discriminate]. cbn [bind].
  destruct (take_rows u (map fst es)); [|discriminate]. cbn [bind]. destruct (take_rows u (map snd es)); [|discriminate]. cbn [bind].
  destruct (mat_mul _ _); [|discriminate]. cbn [bind]. congruence.
Qed.
Lemma ef_um k n es y um pw : ef_marginals k n es (EDiscrete y) = Ok (um, pw) -> one_hot k y = Ok um.
Proof.
  unfold ef_marginals. destruct (length y =? n); [|discriminate]. cbn [ensure bind]. destruct (one_hot k y) as [u|]; [|discriminate]. cbn [bind].
  destruct (mapM _ (map snd es)); [|discriminate]. cbn [bind]. destruct (mapM _ (map fst es)); [|discriminate]. cbn [bind].
  destruct (one_hot (k * k) _); [|discriminate]. cbn [bind]. congruence.
Qed.
Lemma ravel_get k l m : mat_ok m -> mrows m = k -> mcols m = l -> ravel m = concat (tab2 k l (mget m)).
Proof.
  intros O R C. replace m with (mtab k l (mget m)) at 1; [reflexivity|]. symmetry. apply mat_eq_ext; [exact O|apply mtab_ok|exact R|exact C|].
  intros i j Hi Hj. rewrite mget_mtab by congruence. reflexivity.
Qed.
Lemma concat_square k (f : nat -> nat -> Qc) : concat (tab2 k k f) = tab1 (k * k) (fun j => f (j / k) (j mod k)).
Proof.
  apply vec_ext; [rewrite concat_tab2_length, tab1_length; reflexivity|]. intros j. rewrite concat_tab2_length. intro Hj.
  rewrite get1_tab1 by exact Hj. assert (K : k <> 0) by lia. rewrite (Nat.div_mod j k K) at 1. rewrite (Nat.mul_comm k (j / k)).
  apply get1_concat_tab2; [apply Nat.div_lt_upper_bound; lia|apply Nat.mod_upper_bound; exact K].
Qed.
Lemma ones_get n e : e < n -> mget (Mat n 1 (repeat [1%Qc] n)) e 0 = 1%Qc.
Proof. intro H. unfold mget, get2. cbn [mdat]. rewrite (nth_indep _ [] [1%Qc]) by (rewrite repeat_length; exact H). rewrite nth_repeat. reflexivity. Qed.

Lemma ravel_row m f : ravel (mtab 1 m f) = tab1 m (f 0).
Proof. unfold ravel, mtab, tab2. cbn [mdat seq map concat]. apply app_nil_r. Qed.
Definition ones_row n : mat := mat_T (Mat n 1 (repeat [1%Qc] n)).
Lemma ones_row_get n e : e < n -> mget (ones_row n) 0 e = 1%Qc.
Proof. intro H. unfold ones_row. rewrite mget_T by (cbn; lia). apply ones_get. exact H. Qed.
Lemma ones_mul n B : mrows B = n -> mat_mul (ones_row n) B = Ok (mtab 1 (mcols B) (fun _ j => sumn n (fun e => mget B e j))).
Proof.
  intro H. rewrite mat_mul_ok by (symmetry; exact H). f_equal. change (mrows (ones_row n)) with 1. change (mcols (ones_row n)) with n.
  unfold mtab. f_equal. apply tab2_ext. intros i j Hi Hj. assert (i = 0) as -> by lia. apply sumn_ext. intros e He. rewrite ones_row_get by exact He. ring.
Qed.

Section Const.
Variable g : graph_crf.
Hypothesis HD : g_directed g = true.
Notation e1 := (one_edge_feature g).
Notation k := (g_states g).

Lemma size_const : ef_size e1 = g_size g.
Proof. unfold ef_size, g_size. rewrite HD. cbn. lia. Qed.
Lemma check_const x : ef_check_x e1 (with_constant_edges x) = g_check_x g x.
Proof.
  unfold ef_check_x, g_check_x. cbn [ex_features ex_edges ex_edge_features with_constant_edges ef_features ef_edge_features mrows mcols].
  rewrite !Nat.eqb_refl. destruct (_ =? _); reflexivity.
Qed.
Lemma unary_const x w : ef_unary e1 (with_constant_edges x) w = g_unary g x w.
Proof. unfold ef_unary, g_unary. rewrite size_const, check_const. reflexivity. Qed.
Lemma pairwise_const x w :
  ef_pairwise e1 (with_constant_edges x) w =
  (let! P := g_pairwise g x w in Ok (Pw3 (length (gx_edges x)) k k (repeat (mdat P) (length (gx_edges x))))).
Proof.
  unfold ef_pairwise, g_pairwise. rewrite size_const, check_const. unfold check_size_w.
  destruct (length w =? g_size g) eqn:EL; [|reflexivity]. cbn [ensure bind]. apply Nat.eqb_eq in EL. destruct (g_check_x g x) as [[]|]; [|reflexivity]. cbn [bind].
  rewrite HD. unfold ef_pairwise_core. cbn [ef_states ef_features ef_edge_features one_edge_feature ex_edge_features with_constant_edges Nat.eqb].
  set (v := skipn (k * g_features g) w). assert (LV : length v = k * k).
  { unfold v. rewrite skipn_length, EL. unfold g_size. rewrite HD. lia. }
  rewrite Nat.div_1_r, LV. rewrite reshape_ok by lia. cbn [bind]. rewrite reshape_ok by lia. cbn [bind].
  rewrite mat_mul_ok by reflexivity. cbn [bind mrows mcols mtab]. rewrite Nat.eqb_refl. cbn [ensure bind]. f_equal. f_equal.
  set (E := length (gx_edges x)). cbn [mdat].
  transitivity (map (fun _ : nat => tab2 k k (fun i j => get1 v (i * k + j))) (seq 0 E)).
  - apply map_ext_in. intros e He. apply in_seq in He. apply tab2_ext. intros s t Hs Ht.
    change (Mat E (k * k) (tab2 E (k * k) ?f)) with (mtab E (k * k) f). assert (s * k + t < k * k) by nia.
    rewrite mget_mtab by (lia || assumption). unfold sumn. cbn [mcols]. rewrite ones_get by lia.
    rewrite mget_mtab by (lia || assumption). cbn [Nat.mul Nat.add]. ring.
  - clear. generalize 0. induction E as [|E IH]; intro i; [reflexivity|]. cbn [seq map repeat]. rewrite IH. reflexivity.
Qed.
Lemma joint_const x y : ef_joint_feature e1 (with_constant_edges x) (EDiscrete y) = g_joint_feature g x (Discrete y).
Proof.
  unfold ef_joint_feature, g_joint_feature. rewrite check_const. destruct (g_check_x g x) as [[]|] eqn:EC; [|reflexivity]. cbn [bind].
  unfold ef_joint_feature_core. cbn [ef_states ef_sym ef_anti one_edge_feature ex_features ex_edges ex_edge_features with_constant_edges sym_rows].
  set (n := mrows (gx_features x)). set (es := gx_edges x). rewrite HD.
  destruct (length y =? n) eqn:EL; [|unfold ef_marginals, g_marginals; rewrite EL; reflexivity]. apply Nat.eqb_eq in EL.
  destruct (forallb (fun s => s <? k) y) eqn:EY; [|unfold ef_marginals, g_marginals, one_hot; rewrite EL, Nat.eqb_refl, EY; reflexivity].
  assert (FY : Forall (fun s => s < k) y) by (apply forallb_lt_Forall; exact EY).
  destruct (edges_dec n es) as [GE|GE].
  - destruct (g_marginals_discrete k n es y (conj EL FY) GE) as [um [pw [E [A1 [A2 [_ [B1 [B2 [B3 [_ Mp]]]]]]]]]].
    destruct (ef_marginals_discrete k n es y (conj EL FY) GE) as [um' [pw' [E' [_ [_ [B1' [B2' [_ Mp']]]]]]]].
    assert (um' = um) as ->. { assert (Q := g_um _ _ _ _ _ _ E). assert (Q' := ef_um _ _ _ _ _ _ E'). congruence. }
    rewrite E, E'. cbn [bind]. fold (ones_row (length es)). rewrite (ones_mul _ pw' B1'). cbn [bind].
    destruct (mat_mul (mat_T um) (gx_features x)) as [acc|]; [|reflexivity]. cbn [bind]. f_equal. f_equal.
    rewrite (ravel_get k k pw B3 B1 B2), concat_square, ravel_row, B2'.
    apply tab1_ext. intros j Hj. assert (K : k <> 0) by lia.
    assert (D : j / k < k) by (apply Nat.div_lt_upper_bound; lia). assert (M : j mod k < k) by (apply Nat.mod_upper_bound; exact K).
    rewrite Mp by assumption. apply sumn_ext. intros e He.
    rewrite (Nat.div_mod j k K) at 1. rewrite (Nat.mul_comm k (j / k)). apply Mp'; assumption.
  - unfold ef_marginals, g_marginals. rewrite (proj2 (Nat.eqb_eq _ _) EL). cbn [ensure bind]. rewrite one_hot_ok by exact FY. cbn [bind].
    assert (L : (let! u0 := take_rows (mtab (length y) k (fun i s => ind (s =? nth i y 0))) (map fst es) in
                 let! u1 := take_rows (mtab (length y) k (fun i s => ind (s =? nth i y 0))) (map snd es) in
                 let! pw := mat_mul (mat_T u0) u1 in Ok (mtab (length y) k (fun i s => ind (s =? nth i y 0)), pw)) = Err IndexError).
    { unfold take_rows. cbn [mrows mtab]. rewrite EL. destruct (forallb _ (map fst es)) eqn:A; [|reflexivity]. cbn [bind].
      destruct (forallb _ (map snd es)) eqn:B; [|reflexivity]. exfalso. destruct GE as [N|N]; apply N; apply forallb_lt_Forall; assumption. }
    rewrite L. rewrite <- EL in GE.
    destruct (Forall_dec (fun i => i < length y) (fun i => lt_dec i (length y)) (map snd es)) as [F|F].
    + rewrite (mapM_index y _ F). cbn [bind]. rewrite mapM_index_err by tauto. reflexivity.
    + rewrite mapM_index_err by exact F. reflexivity.
Qed.
Lemma relaxed_const x um pw : 0 < k -> mat_ok pw -> mrows pw = length (gx_edges x) -> mcols pw = k * k ->
  ef_joint_feature e1 (with_constant_edges x) (ERelaxed um pw) = g_joint_feature g x (Relaxed um (ravel pw)).
Proof.
  intros Hk O R C. unfold ef_joint_feature, g_joint_feature. rewrite check_const. destruct (g_check_x g x) as [[]|] eqn:EC; [|reflexivity]. cbn [bind].
  unfold ef_joint_feature_core. cbn [ef_states ef_sym ef_anti one_edge_feature ex_features ex_edges ex_edge_features with_constant_edges sym_rows ef_marginals g_marginals].
  rewrite HD. destruct (reshape um (mrows (gx_features x)) k) as [u|]; [|reflexivity]. cbn [bind].
  fold (ones_row (length (gx_edges x))). rewrite (ones_mul _ pw R). cbn [bind].
  unfold sum_pairwise. rewrite ravel_ok_length by exact O. rewrite R, C. rewrite Nat.mod_mul, Nat.div_mul, Nat.eqb_refl by nia.
  replace (k =? 0) with false by (symmetry; apply Nat.eqb_neq; lia). cbn [negb orb bind].
  destruct (mat_mul (mat_T u) (gx_features x)) as [acc|]; [|reflexivity]. cbn [bind]. f_equal. f_equal.
  rewrite ravel_row. unfold ravel at 1. cbn [mdat mtab]. rewrite concat_square.
  apply tab1_ext. intros j Hj. apply sumn_ext. intros e He.
  rewrite (ravel_get (length (gx_edges x)) (k * k) pw O R C).
  replace ((e * k + j / k) * k + j mod k) with (e * (k * k) + j).
  2:{ rewrite (Nat.div_mod j k) at 1 by lia. nia. }
  rewrite get1_concat_tab2 by assumption. reflexivity.
Qed.

Section Solve.
Variable solve : solver.
Hypothesis HB : shape_blind solve.
Lemma potentials_shape x w U P : g_unary g x w = Ok U -> g_pairwise g x w = Ok P -> mcols U = k /\ mat_ok P /\ mrows P = k /\ mcols P = k.
Proof.
  intros HU HP. unfold g_unary in HU. destruct (check_size_w _ w) as [[]|]; [|discriminate]. destruct (g_check_x g x) as [[]|]; [|discriminate]. cbn [bind] in HU.
  destruct (reshape _ k _) as [B|] eqn:ER; [|discriminate]. cbn [bind] in HU. destruct (mat_mul_shape _ _ _ HU) as [_ C].
  unfold reshape in ER. destruct (_ =? _) in ER; [|discriminate]. injection ER as <-. split; [exact C|].
  unfold g_pairwise in HP. destruct (check_size_w _ w) as [[]|]; [|discriminate]. destruct (g_check_x g x) as [[]|]; [|discriminate]. cbn [bind] in HP.
  rewrite HD in HP. unfold reshape in HP. destruct (_ =? _) in HP; [|discriminate]. injection HP as <-. split; [apply mtab_ok|split; reflexivity].
Qed.
Lemma inference_const x w : ef_inference solve e1 (with_constant_edges x) w = g_inference solve g x w.
Proof.
  unfold ef_inference, g_inference, g_potentials. rewrite size_const, unary_const, pairwise_const.
  destruct (check_size_w (g_size g) w) as [[]|]; [|reflexivity]. cbn [bind].
  destruct (g_unary g x w) as [U|] eqn:EU; [|reflexivity]. cbn [bind]. destruct (g_pairwise g x w) as [P|] eqn:EP; [|reflexivity]. cbn [bind fst snd].
  destruct (potentials_shape x w U P EU EP) as (CU & O & R & C). rewrite (HB U P (gx_edges x) O) by congruence. rewrite CU. reflexivity.
Qed.
Lemma laug_const cw x y w : ef_loss_augmented_inference solve e1 cw (with_constant_edges x) y w = g_loss_augmented_inference solve g cw x y w.
Proof.
  unfold ef_loss_augmented_inference, g_loss_augmented_inference, g_potentials. rewrite size_const, unary_const, pairwise_const.
  destruct (check_size_w (g_size g) w) as [[]|]; [|reflexivity]. cbn [bind].
  destruct (g_unary g x w) as [U|] eqn:EU; [|reflexivity]. cbn [bind]. destruct (g_pairwise g x w) as [P|] eqn:EP; [|reflexivity]. cbn [bind fst snd].
  destruct (potentials_shape x w U P EU EP) as (CU & O & R & C).
  destruct (loss_augment_unaries U y cw) as [U'|] eqn:EL; [|reflexivity]. cbn [bind].
  assert (CU' : mcols U' = mcols U). { unfold loss_augment_unaries in EL. destruct (mapM _ _) as [r|]; [|discriminate]. cbn [bind] in EL. injection EL as <-. reflexivity. }
  rewrite (HB U' P (gx_edges x) O) by congruence. rewrite CU', CU. reflexivity.
Qed.
End Solve.
End Const.

(** ** which solvers do not care *)
Lemma validate_same (U : mat) P (es : list (nat * nat)) : mrows P = mcols U -> mcols P = mcols U ->
  validate_params U (Pw2 P) (length es) = validate_params U (Pw3 (length es) (mcols U) (mcols U) (repeat (mdat P) (length es))) (length es).
Proof. intros R C. unfold validate_params. rewrite R, C, !Nat.eqb_refl. reflexivity. Qed.
Lemma dispatch_blind b m : m <> "ad3+"%string -> shape_blind (dispatch_solver b m).
Proof.
  intros N U P es O R C. unfold dispatch_solver, inference_dispatch, dispatch_name.
  assert (V := validate_same U P es R C). destruct (String.eqb_spec m "ad3+") as [Q|_]; [contradiction|].
  cbn [single bind]. unfold inference_qpbo, inference_lp, inference_ad3, inference_ogm, inference_unaries, inference_max_product. rewrite V. reflexivity.
Qed.

From Coq Require Import String ZArith.
From Verif Require Import Spec.InferenceSpec Proofs.InferenceProofs Proofs.DispatchProofs.
From Verif Require Import Model.Typed Spec.TypedSpec Proofs.Arrays Proofs.LossProofs Proofs.EdgeFeatureProofs
  Proofs.NSlackProofs5 Proofs.TypedProofs Proofs.TypedLabels Proofs.TypedScore Proofs.TypedJoint Proofs.TypedLoss.

(** ** the continuous loss *)
Lemma closs_ok (l : list mat) : forall y cum,
  length y = list_sum (map mrows l) ->
  (forall t i, (t < length l)%nat -> (i < mrows (nth t l (Mat 0 0 [])))%nat ->
     let z := nth (TypedSpec.before (map mrows l) t + i) y 0%Z in
     (Z.of_nat (cum + TypedSpec.before (map mcols l) t) <= z < Z.of_nat (cum + TypedSpec.before (map mcols l) t + mcols (nth t l (Mat 0 0 []))))%Z) ->
  exists v, closs_loop l y cum = Ok v /\ length v = length y /\
    forall t i, (t < length l)%nat -> (i < mrows (nth t l (Mat 0 0 [])))%nat ->
      get1 v (TypedSpec.before (map mrows l) t + i) =
      1 - mget (nth t l (Mat 0 0 [])) i (Z.to_nat (nth (TypedSpec.before (map mrows l) t + i) y 0%Z - Z.of_nat (cum + TypedSpec.before (map mcols l) t))).
Proof.
  induction l as [|m l IH]; intros y cum LY H.
  - exists []. split; [reflexivity|]. split; [exact (eq_sym LY)|]. intros t i Ht. simpl in Ht. lia.
  - cbn [map list_sum fold_right] in LY. change (fold_right Nat.add 0%nat) with list_sum in LY.
    destruct (IH (skipn (mrows m) y) (cum + mcols m)%nat) as [vs [E [L N]]]; [rewrite skipn_length; lia| |].
    { intros t i Ht Hi. specialize (H (S t) i ltac:(simpl; lia) Hi). cbn [map nth] in H. rewrite !before_cons in H. rewrite nth_skipn, !Nat.add_assoc. rewrite !Nat.add_assoc in H. exact H. }
    assert (H0 : forall i, (i < mrows m)%nat -> (Z.of_nat cum <= nth i y 0%Z < Z.of_nat (cum + mcols m))%Z).
    { intros i Hi. specialize (H O i ltac:(simpl; lia) Hi). cbn [map nth] in H. rewrite !before_0, !Nat.add_0_r in H. exact H. }
    cbn [closs_loop]. set (yt := zminus (firstn (mrows m) y) cum).
    assert (LT : length yt = mrows m) by (unfold yt, zminus; rewrite map_length, firstn_length; lia).
    assert (NT : forall i, (i < mrows m)%nat -> nth i yt 0%Z = (nth i y 0 - Z.of_nat cum)%Z).
    { intros i Hi. unfold yt, zminus. rewrite (nth_map_in _ _ _ 0%Z) by (rewrite firstn_length; lia). rewrite nth_firstn by exact Hi. reflexivity. }
    set (gg := fun q : nat * Z => 1 - mget m (fst q) (Z.to_nat (snd q))).
    rewrite (mapM_ok _ gg).
    2:{ intros [j z] Hq. apply (In_nth _ _ (O, 0%Z)) in Hq. destruct Hq as [k [Hk E2]]. rewrite combine_length, seq_length in Hk. rewrite nth_combine_d in E2 by (rewrite ?seq_length; lia).
        rewrite seq_nth in E2 by lia. cbn [Nat.add] in E2. injection E2 as <- <-. cbn [snd fst]. rewrite NT by lia. specialize (H0 k ltac:(lia)).
        rewrite wrap_ok by lia. reflexivity. }
    cbn [bind]. rewrite E. cbn [bind]. eexists. split; [reflexivity|].
    assert (LM : length (map gg (combine (seq 0 (length yt)) yt)) = mrows m) by (rewrite map_length, combine_length, seq_length; lia).
    split; [rewrite app_length, LM, L, skipn_length; lia|].
    intros t i Ht Hi. unfold get1. destruct t as [|t]; cbn [nth map] in Hi |- *.
    + rewrite !before_0. cbn [Nat.add]. rewrite app_nth1 by lia. rewrite (nth_map_in _ _ _ (O, 0%Z)) by (rewrite map_length in LM; lia). rewrite nth_combine_d by (rewrite ?seq_length; lia).
      rewrite seq_nth by lia. cbn [Nat.add]. unfold gg. cbn [fst snd]. rewrite NT by exact Hi. rewrite Nat.add_0_r. reflexivity.
    + rewrite !before_cons. rewrite app_nth2 by lia. rewrite LM. replace (mrows m + TypedSpec.before (map mrows l) t + i - mrows m)%nat with (TypedSpec.before (map mrows l) t + i)%nat by lia.
      specialize (N t i ltac:(simpl in Ht; lia) Hi). unfold get1 in N. rewrite N. rewrite nth_skipn, !Nat.add_assoc. reflexivity.
Qed.

Lemma ty_continuous_ok g x y ums : well_typed g -> let n := length (ty_states g) in let rows := type_rows n x in
  typed_labelling (ty_states g) rows y -> typed_potentials g x ums ->
  ty_continuous_loss g y ums = Ok (sumn n (fun t => sumn (x_rows x t) (fun i =>
     let k := typed_lab (ty_states g) rows y t i in
     get1 (nth t (ty_weights g) []) k * (1 - mget (nth t ums (Mat 0 0 [])) i k)))).
Proof.
  intros W n rows Y [LU SU]. fold n in LU, SU. pose proof Y as [LY YR]. fold n in YR. pose proof W as [N0 _]. fold n in N0.
  assert (LR : length rows = n) by apply rows_length.
  assert (MR : map mrows ums = rows).
  { apply (nth_ext_d _ _ O); [rewrite map_length; lia|]. intros k Hk. rewrite map_length in Hk. rewrite (nth_map_in _ _ _ (Mat 0 0 [])) by lia.
    destruct (SU k ltac:(lia)) as [-> _]. fold (part rows k). unfold rows. rewrite rows_part by lia. reflexivity. }
  assert (MC : map mcols ums = ty_states g).
  { apply (nth_ext_d _ _ O); [rewrite map_length; fold n; lia|]. intros k Hk. rewrite map_length in Hk. rewrite (nth_map_in _ _ _ (Mat 0 0 [])) by lia. apply SU. lia. }
  destruct (closs_ok ums y 0) as [v [E [L N]]].
  { rewrite MR. exact LY. }
  { intros t i Ht Hi. rewrite MR, MC. cbn [Nat.add]. rewrite LU in Ht. destruct (SU t Ht) as [R ->]. apply YR; [exact Ht|].
    unfold rows. rewrite rows_part by exact Ht. rewrite <- R. exact Hi. }
  unfold ty_continuous_loss. replace (length ums =? 0)%nat with false by (symmetry; apply Nat.eqb_neq; lia). cbn [negb ensure bind].
  rewrite E. cbn [bind]. rewrite MR, MC in N. cbn [Nat.add] in N.
  set (cw := ty_class_weight g).
  assert (POS : forall t i, (t < n)%nat -> (i < x_rows x t)%nat -> (TypedSpec.before rows t + i < length y)%nat).
  { intros t i Ht Hi. rewrite LY. pose proof (before_part_le rows t ltac:(lia)) as K. unfold rows in K at 2. rewrite rows_part in K by exact Ht. lia. }
  assert (YB : forall z, In z y -> (0 <= z < Z.of_nat (length cw))%Z).
  { intros z Hz. apply (In_nth _ _ 0%Z) in Hz. destruct Hz as [k [Hk <-]].
    set (yn := map Z.to_nat y).
    assert (K : forall rows' k, (k < list_sum rows')%nat -> exists t i, (t < length rows')%nat /\ (i < part rows' t)%nat /\ k = (TypedSpec.before rows' t + i)%nat).
    { clear. induction rows' as [|r rows' IH]; intros k Hk; [simpl in Hk; lia|]. destruct (Nat.lt_ge_cases k r) as [J|J].
      - exists O, k. simpl. unfold part. simpl. split; [lia|]. split; [exact J|]. reflexivity.
      - cbn [list_sum fold_right] in Hk. change (fold_right Nat.add 0%nat) with list_sum in Hk. destruct (IH (k - r)%nat ltac:(lia)) as [t [i [A [B C]]]]. exists (S t), i.
        split; [simpl; lia|]. split; [exact B|]. rewrite before_cons. lia. }
    rewrite LY in Hk. destruct (K rows k Hk) as [t [i [A [B ->]]]]. rewrite LR in A. specialize (YR t i A B).
    unfold cw. rewrite class_weight_length by exact W. pose proof (before_part_le (ty_states g) t A). lia. }
  rewrite (mapM_ok _ (fun z => get1 cw (Z.to_nat z))).
  2:{ intros z Hz. unfold get1. apply zindex_ok. apply YB. exact Hz. }
  cbn [bind]. unfold broadcast_dot. rewrite map_length, L, Nat.eqb_refl. f_equal.
  change (lsum (zipw Qcmult (map (fun z => get1 cw (Z.to_nat z)) y) v)) with (dot (map (fun z => get1 cw (Z.to_nat z)) y) v).
  rewrite dot_get by (rewrite map_length; auto). rewrite map_length, LY, sumn_types, LR. apply sumn_ext. intros t Ht.
  unfold rows at 1. rewrite rows_part by exact Ht. apply sumn_ext. intros i Hi. pose proof (POS t i Ht Hi) as P.
  destruct (SU t Ht) as [R C]. rewrite N by (try lia; rewrite R; exact Hi). cbv zeta. f_equal.
  unfold get1 at 1. rewrite (nth_map_in _ _ _ 0%Z) by exact P. unfold cw.
  assert (B : (i < part rows t)%nat) by (unfold rows; rewrite rows_part by exact Ht; exact Hi).
  rewrite <- weights_nth; [|exact W|exact Ht|apply typed_lab_lt; assumption]. f_equal. unfold typed_lab. specialize (YR t i Ht B). lia.
Qed.

(** ** potentials and scores *)
Lemma potentials_ty_score g x w Us Ps y : well_typed g -> typed_instance g x -> length w = ty_size g ->
  ty_unary g x w = Ok Us -> ty_pairwise g x w = Ok Ps -> let n := length (ty_states g) in
  typed_labelling (ty_states g) (type_rows n x) y ->
  potentials_score n (x_rows x) (x_edges n x) Us Ps (typed_lab (ty_states g) (type_rows n x) y) = ty_score g x w y.
Proof.
  intros W T Hw EU EP n Y. destruct (ty_unary_ok g x w W T Hw) as [Us' [EU' [LU NU]]]. assert (Us' = Us) by congruence. subst Us'.
  destruct (ty_pairwise_ok g x w W T Hw) as [Ps' [EP' [LP NP]]]. assert (Ps' = Ps) by congruence. subst Ps'. fold n in LU, NU, LP, NP.
  pose proof T as (_ & _ & _ & _ & TE). fold n in TE.
  unfold potentials_score, ty_score, typed_score. fold n. set (rows := type_rows n x) in *. f_equal.
  - apply sumn_ext. intros t Ht. apply sumn_ext. intros i Hi. destruct (NU t Ht) as [_ [_ [_ V]]]. apply V; [exact Hi|].
    apply typed_lab_lt; [exact Y|exact Ht|]. unfold rows. rewrite rows_part by exact Ht. exact Hi.
  - apply sumn_ext. intros a Ha. apply sumn_ext. intros b Hb. apply sumn_ext. intros e He. destruct (NP a b Ha Hb) as [_ V].
    destruct (TE a b Ha Hb) as [FE _]. rewrite Forall_forall in FE. specialize (FE (nth e (x_edges n x a b) (0, 0)%Z) ltac:(apply nth_In; exact He)).
    apply V; [exact He| |]; (apply typed_lab_lt; [exact Y|assumption|]; unfold rows; rewrite rows_part by assumption; lia).
Qed.

Lemma solver_edges_ok g x : typed_instance g x -> nat_edges (ty_edges x) = Ok (solver_edges x).
Proof.
  intros (LN & LE0 & LE & _ & TE). set (n := length (ty_states g)) in *. unfold nat_edges, ty_edges, solver_edges.
  rewrite (mapM_ok _ (map (fun p : Z * Z => (Z.to_nat (fst p), Z.to_nat (snd p))))).
  - rewrite map_map. f_equal. apply map_ext. intros [e|]; reflexivity.
  - intros es H. apply (In_nth _ _ []) in H. destruct H as [k [Hk <-]]. rewrite map_length, LE0 in Hk.
    destruct (split_index n k Hk) as [K1 [K2 K3]]. destruct (TE _ _ K1 K2) as [FE _]. unfold x_edges in FE. rewrite <- K3 in FE.
    rewrite (nth_map_in _ _ _ None) by lia. rewrite Forall_forall in FE.
    apply mapM_ok. intros e He. specialize (FE e He). replace ((0 <=? fst e) && (0 <=? snd e))%Z with true; [reflexivity|].
    symmetry. apply andb_true_iff. split; apply Z.leb_le; lia.
Qed.

(** ** decoding *)
Lemma sums_before (f : mat -> nat) ums j : InferenceSpec.before f ums j = TypedSpec.before (map f ums) j.
Proof. unfold InferenceSpec.before, TypedSpec.before. rewrite firstn_map. reflexivity. Qed.

Lemma shapes_maps g x Us : typed_potentials g x Us ->
  map mrows Us = type_rows (length (ty_states g)) x /\ map mcols Us = ty_states g.
Proof.
  intros [LU SU]. set (n := length (ty_states g)) in *. pose proof (rows_length n x) as LR. split.
  - apply (nth_ext_d _ _ O); [rewrite map_length; lia|]. intros k Hk. rewrite map_length in Hk. rewrite (nth_map_in _ _ _ (Mat 0 0 [])) by lia.
    destruct (SU k ltac:(lia)) as [-> _]. fold (part (type_rows n x) k). rewrite rows_part by lia. reflexivity.
  - apply (nth_ext_d _ _ O); [rewrite map_length; fold n; lia|]. intros k Hk. rewrite map_length in Hk. rewrite (nth_map_in _ _ _ (Mat 0 0 [])) by lia. apply SU. lia.
Qed.

Lemma decode_marks g x Us ums y : (0 < length (ty_states g))%nat -> typed_potentials g x Us -> marks ums Us y ->
  let n := length (ty_states g) in let rows := type_rows n x in
  exists yl, decode_types ums = Ok yl /\ typed_labelling (ty_states g) rows (map Z.of_nat yl) /\
    forall t i, (t < n)%nat -> (i < x_rows x t)%nat -> typed_lab (ty_states g) rows (map Z.of_nat yl) t i = y t i.
Proof.
  intros N0 SH [LM M] n rows. destruct SH as [LU SU] eqn:SHE. clear SHE. fold n in N0, LU, SU.
  assert (SM : typed_potentials g x ums).
  { split; [fold n; lia|]. fold n. intros t Ht. destruct (M t ltac:(lia)) as [_ [-> [-> _]]]. apply SU, Ht. }
  destruct (shapes_maps g x ums SM) as [MR MC]. fold n in MR. fold rows in MR. assert (LR : length rows = n) by apply rows_length.
  destruct (decode_from_ok ums) with (cum := O) as [yl E].
  { intros m Hm Hr. apply (In_nth _ _ (Mat 0 0 [])) in Hm. destruct Hm as [t [Ht <-]]. destruct (M t ltac:(lia)) as [_ [R [C V]]].
    rewrite R in Hr. destruct (V O Hr) as [V1 _]. rewrite C. lia. }
  exists yl. split; [destruct ums as [|m r]; [simpl in LM; lia|exact E]|].
  destruct (decode_from_spec ums 0 yl E) as [L S]. rewrite MR in L.
  assert (K : forall t i, (t < n)%nat -> (i < x_rows x t)%nat -> nth (TypedSpec.before rows t + i) (map Z.of_nat yl) 0%Z = Z.of_nat (TypedSpec.before (ty_states g) t + y t i) /\ (y t i < part (ty_states g) t)%nat).
  { intros t i Ht Hi. destruct (SU t Ht) as [R C]. destruct (M t ltac:(lia)) as [_ [R' [C' V]]].
    destruct (S t i ltac:(lia)) as [s [S1 [S2 [S3 _]]]]; [rewrite R', R; exact Hi|].
    rewrite !sums_before, MR, MC in S2. cbn [Nat.add] in S2.
    destruct (V i ltac:(rewrite R; exact Hi)) as [V1 V2]. rewrite C in V1, V2. rewrite C', C in S1, S3.
    assert (s = y t i).
    { specialize (S3 (y t i) V1). rewrite !V2 in S3 by assumption. rewrite Nat.eqb_refl in S3. destruct (Nat.eqb_spec s (y t i)) as [Q|Q]; [exact Q|].
      exfalso. apply (Qcle_not_lt _ _ S3). reflexivity. }
    subst s. split; [|exact V1].
    assert (P : (TypedSpec.before rows t + i < length yl)%nat).
    { rewrite L. pose proof (before_part_le rows t ltac:(lia)) as K. unfold rows in K at 2. rewrite rows_part in K by exact Ht. lia. }
    rewrite (nth_map_in _ _ _ O) by exact P. rewrite S2. reflexivity. }
  split; [split|].
  - rewrite map_length. exact L.
  - fold n. intros t i Ht Hi. unfold rows in Hi. rewrite rows_part in Hi by exact Ht. destruct (K t i Ht Hi) as [-> Q]. lia.
  - intros t i Ht Hi. unfold typed_lab. destruct (K t i Ht Hi) as [-> Q]. lia.
Qed.

Lemma potentials_ext n rows edges Us Ps y y' :
  (forall t i, (t < n)%nat -> (i < rows t)%nat -> y t i = y' t i) ->
  (forall a b, (a < n)%nat -> (b < n)%nat -> Forall (fun e => (0 <= fst e < Z.of_nat (rows a))%Z /\ (0 <= snd e < Z.of_nat (rows b))%Z) (edges a b)) ->
  potentials_score n rows edges Us Ps y = potentials_score n rows edges Us Ps y'.
Proof.
  intros H HE. unfold potentials_score, typed_score. f_equal.
  - apply sumn_ext. intros t Ht. apply sumn_ext. intros i Hi. rewrite H by assumption. reflexivity.
  - apply sumn_ext. intros a Ha. apply sumn_ext. intros b Hb. apply sumn_ext. intros e He. specialize (HE a b Ha Hb). rewrite Forall_forall in HE.
    specialize (HE (nth e (edges a b) (0, 0)%Z) ltac:(apply nth_In; exact He)). rewrite !H by (try assumption; lia). reflexivity.
Qed.
Lemma potentials_rows n rows rows' edges Us Ps y :
  (forall t, (t < n)%nat -> rows t = rows' t) ->
  potentials_score n rows edges Us Ps y = potentials_score n rows' edges Us Ps y.
Proof. intro H. unfold potentials_score, typed_score. f_equal. apply sumn_ext. intros t Ht. rewrite H by exact Ht. reflexivity. Qed.

Definition method_of (plus : bool) : string := if plus then "ad3+"%string else "ad3"%string.

Lemma dispatch_call b lib plus g us ps x relaxed : b_ad3 b = Some lib -> ty_method g = method_of plus -> typed_instance g x ->
  ty_dispatch b g us ps x [("relaxed"%string, VBool relaxed)] =
  let! r := solver_call lib plus us (solver_edges x) ps in let! r' := multi_answer r relaxed false in Ok (fst r').
Proof.
  intros Hb Hm T. unfold ty_dispatch. rewrite (solver_edges_ok g x T). cbn [bind]. rewrite Hm. unfold method_of, solver_call. destruct plus.
  - cbn -[multi_answer solver_edges]. unfold inference_ad3plus. rewrite Hb. cbn [imported bind].
    replace (truthy (VBool relaxed)) with relaxed by (destruct relaxed; reflexivity).
    destruct (ad3_constraineds lib us (solver_edges x) ps VNone (VBool false)) as [r|e]; cbn [bind]; [|reflexivity].
    destruct (multi_answer r relaxed false) as [[r' e]|e]; reflexivity.
  - cbn -[multi_answer solver_edges]. unfold inference_ad3. rewrite Hb. cbn [imported bind].
    replace (truthy (VBool relaxed)) with relaxed by (destruct relaxed; reflexivity).
    destruct (ad3_graphs lib us (solver_edges x) ps (VBool false)) as [r|e]; cbn [bind]; [|reflexivity].
    destruct (multi_answer r relaxed false) as [[r' e]|e]; reflexivity.
Qed.

Lemma dispatch_exact b lib plus g us ps x relaxed : b_ad3 b = Some lib -> ty_method g = method_of plus ->
  well_typed g -> typed_instance g x -> exact_typed lib plus g x ->
  typed_potentials g x us -> length ps = (length (ty_states g) * length (ty_states g))%nat ->
  let n := length (ty_states g) in let rows := type_rows n x in
  exists yl, ty_dispatch b g us ps x [("relaxed"%string, VBool relaxed)] = Ok (RLabels yl) /\
    typed_labelling (ty_states g) rows (map Z.of_nat yl) /\
    forall y', typed_labelling (ty_states g) rows y' ->
      potentials_score n (x_rows x) (x_edges n x) us ps (typed_lab (ty_states g) rows y') <=
      potentials_score n (x_rows x) (x_edges n x) us ps (typed_lab (ty_states g) rows (map Z.of_nat yl)).
Proof.
  intros Hb Hm W T EX SH LP n rows. destruct (EX us ps SH LP) as [ums [pms [energy [y [E [M B]]]]]]. fold n in B.
  pose proof W as [N0 _]. destruct (decode_marks g x us ums y N0 SH M) as [yl [ED [TL VL]]]. fold n in TL, VL. fold rows in TL, VL.
  exists yl. rewrite (dispatch_call b lib plus g us ps x relaxed Hb Hm T). rewrite E. cbn [bind multi_answer not_integral andb negb ensure].
  rewrite ED. cbn [bind fst]. split; [reflexivity|]. split; [exact TL|]. intros y' Y'.
  destruct SH as [LU SU]. fold n in LU, SU. pose proof T as (_ & _ & _ & _ & TE). fold n in TE.
  assert (RW : forall t, (t < n)%nat -> mrows (nth t us (Mat 0 0 [])) = x_rows x t) by (intros t Ht; apply SU, Ht).
  specialize (B (typed_lab (ty_states g) rows y')).
  rewrite !(potentials_rows n (fun t => mrows (nth t us (Mat 0 0 []))) (x_rows x)) in B by exact RW.
  assert (EQ : potentials_score n (x_rows x) (x_edges n x) us ps (typed_lab (ty_states g) rows (map Z.of_nat yl)) = potentials_score n (x_rows x) (x_edges n x) us ps y).
  { apply potentials_ext; [exact VL|]. intros a b0 Ha Hb0. apply (TE a b0 Ha Hb0). }
  rewrite EQ. apply B.
  intros t i Ht Hi. destruct (SU t Ht) as [R C]. rewrite C. apply typed_lab_lt; [exact Y'|exact Ht|].
  unfold rows. rewrite rows_part by exact Ht. rewrite R in Hi. exact Hi.
Qed.

Lemma unary_shapes g x w us : well_typed g -> typed_instance g x -> length w = ty_size g -> ty_unary g x w = Ok us -> typed_potentials g x us.
Proof.
  intros W T Hw E. destruct (ty_unary_ok g x w W T Hw) as [us' [E' [LU NU]]]. assert (us' = us) by congruence. subst us'.
  split; [exact LU|]. intros t Ht. destruct (NU t Ht) as [_ [R [C _]]]. auto.
Qed.

Lemma ty_inference_exact b lib plus g x w relaxed : b_ad3 b = Some lib -> ty_method g = method_of plus ->
  well_typed g -> typed_instance g x -> exact_typed lib plus g x -> length w = ty_size g ->
  let rows := type_rows (length (ty_states g)) x in
  exists yl, ty_inference b g x w relaxed [] = Ok (RLabels yl) /\ typed_labelling (ty_states g) rows (map Z.of_nat yl) /\
    forall y', typed_labelling (ty_states g) rows y' -> ty_score g x w y' <= ty_score g x w (map Z.of_nat yl).
Proof.
  intros Hb Hm W T EX Hw rows. set (n := length (ty_states g)) in *.
  destruct (ty_unary_ok g x w W T Hw) as [us [EU _]]. destruct (ty_pairwise_ok g x w W T Hw) as [ps [EP [LP _]]].
  pose proof (unary_shapes g x w us W T Hw EU) as SH.
  destruct (dispatch_exact b lib plus g us ps x relaxed Hb Hm W T EX SH LP) as [yl [E [TL B]]]. fold n in TL, B. fold rows in TL, B.
  exists yl. split; [unfold ty_inference, check_size_w; rewrite Hw, Nat.eqb_refl; cbn [ensure bind]; rewrite EU, EP; cbn [bind]; exact E|].
  split; [exact TL|]. intros y' Y'. specialize (B y' Y'). unfold n, rows in B, Y', TL.
  rewrite !(potentials_ty_score g x w us ps) in B by assumption. exact B.
Qed.

Lemma ty_laug_exact b lib plus g x y w relaxed : b_ad3 b = Some lib -> ty_method g = method_of plus ->
  well_typed g -> typed_instance g x -> exact_typed lib plus g x -> length w = ty_size g ->
  let rows := type_rows (length (ty_states g)) x in
  let delta := fun y' => hamming (length y) (get1 (ty_class_weight g)) (lab y) (lab y') in
  typed_labelling (ty_states g) rows (map Z.of_nat y) ->
  exists yl, ty_loss_augmented_inference b g x (map Z.of_nat y) w relaxed = Ok (RLabels yl) /\
    typed_labelling (ty_states g) rows (map Z.of_nat yl) /\
    forall y', typed_labelling (ty_states g) rows (map Z.of_nat y') ->
      ty_score g x w (map Z.of_nat y') + delta y' <= ty_score g x w (map Z.of_nat yl) + delta yl.
Proof.
  intros Hb Hm W T EX Hw rows delta Y. set (n := length (ty_states g)) in *.
  destruct (ty_unary_ok g x w W T Hw) as [us [EU _]]. destruct (ty_pairwise_ok g x w W T Hw) as [ps [EP [LP _]]].
  pose proof (unary_shapes g x w us W T Hw EU) as SH.
  destruct (ty_laug_ok g x us W SH (map Z.of_nat y) Y) as [us' [EA [SH' _]]].
  destruct (dispatch_exact b lib plus g us' ps x relaxed Hb Hm W T EX SH' LP) as [yl [E [TL B]]]. fold n in TL, B. fold rows in TL, B.
  exists yl. split; [unfold ty_loss_augmented_inference, check_size_w; rewrite Hw, Nat.eqb_refl; cbn [ensure bind]; rewrite EU, EP; cbn [bind]; rewrite EA; cbn [bind]; exact E|].
  split; [exact TL|]. intros y' Y'. specialize (B _ Y'). unfold n, rows in B, Y', TL, Y.
  rewrite !(laug_score g x us us' ps y) in B by assumption.
  rewrite !(potentials_ty_score g x w us ps) in B by assumption. exact B.
Qed.

(** ** the flag, fractional answers, constraints *)
Lemma pairwise_loop_flag v g l : forall w, pairwise_loop (set_inference_exception v g) l w = pairwise_loop g l w.
Proof. induction l as [|[p ef] l IH]; intro w; cbn [pairwise_loop]; [reflexivity|]. rewrite IH. reflexivity. Qed.
Lemma flag_ignored b g x y w v relaxed cs :
  ty_inference b (set_inference_exception v g) x w relaxed cs = ty_inference b g x w relaxed cs /\
  ty_loss_augmented_inference b (set_inference_exception v g) x y w relaxed = ty_loss_augmented_inference b g x y w relaxed.
Proof.
  assert (EP : ty_pairwise (set_inference_exception v g) x w = ty_pairwise g x w).
  { unfold ty_pairwise. rewrite pairwise_loop_flag. reflexivity. }
  unfold ty_inference, ty_loss_augmented_inference. rewrite !EP. split; reflexivity.
Qed.

Lemma fractional_silent b lib plus g x w us ps ums pms energy : b_ad3 b = Some lib -> ty_method g = method_of plus ->
  well_typed g -> typed_instance g x -> length w = ty_size g -> Forall (fun k => (0 < k)%nat) (ty_states g) ->
  ty_unary g x w = Ok us -> ty_pairwise g x w = Ok ps ->
  solver_call lib plus us (solver_edges x) ps = Ok (ums, pms, energy, Fractional) -> typed_potentials g x ums ->
  exists yl, ty_inference b g x w false [] = Ok (RLabels yl) /\
             ty_inference b g x w true [] = Ok (RMarginalsList ums pms).
Proof.
  intros Hb Hm W T Hw PS EU EP ES SM. pose proof W as [N0 _]. destruct (shapes_maps g x ums SM) as [MR MC]. destruct SM as [LM SM].
  destruct (decode_from_ok ums) with (cum := O) as [yl E].
  { intros m Hm' Hr. rewrite Forall_forall in PS. apply PS. rewrite <- MC. apply in_map. exact Hm'. }
  exists yl. unfold ty_inference, check_size_w. rewrite Hw, Nat.eqb_refl. cbn [ensure bind]. rewrite EU, EP. cbn [bind].
  rewrite !(dispatch_call b lib plus g us ps x _ Hb Hm T). rewrite ES. cbn [bind multi_answer not_integral andb negb ensure fst].
  split; [|reflexivity]. assert (ED : decode_types ums = Ok yl) by (destruct ums as [|m r]; [simpl in LM; lia|exact E]). rewrite ED. reflexivity.
Qed.

Lemma ad3_constraints b g x w relaxed c cs : ty_method g = "ad3"%string ->
  well_typed g -> typed_instance g x -> length w = ty_size g ->
  ty_inference b g x w relaxed (c :: cs) = Err TypeError.
Proof.
  intros Hm W T Hw. destruct (ty_unary_ok g x w W T Hw) as [us [EU _]]. destruct (ty_pairwise_ok g x w W T Hw) as [ps [EP [LP _]]].
  unfold ty_inference, check_size_w. rewrite Hw, Nat.eqb_refl. cbn [ensure bind]. rewrite EU, EP. cbn [bind].
  unfold ty_dispatch. rewrite (solver_edges_ok g x T). cbn [bind]. rewrite Hm. reflexivity.
Qed.
Lemma ad3plus_constraints b lib g x w relaxed c cs us ps : b_ad3 b = Some lib -> ty_method g = "ad3+"%string ->
  well_typed g -> typed_instance g x -> length w = ty_size g -> ty_unary g x w = Ok us -> ty_pairwise g x w = Ok ps ->
  ty_inference b g x w relaxed (c :: cs) =
  let! r := ad3_constraineds lib us (solver_edges x) ps (VConstraints (c :: cs)) (VBool false) in
  let! r' := multi_answer r relaxed false in Ok (fst r').
Proof.
  intros Hb Hm W T Hw EU EP.
  unfold ty_inference, check_size_w. rewrite Hw, Nat.eqb_refl. cbn [ensure bind]. rewrite EU, EP. cbn [bind].
  unfold ty_dispatch. rewrite (solver_edges_ok g x T). cbn [bind]. rewrite Hm.
  cbn -[multi_answer solver_edges]. unfold inference_ad3plus. rewrite Hb. cbn [imported bind].
  replace (truthy (VBool relaxed)) with relaxed by (destruct relaxed; reflexivity).
  destruct (ad3_constraineds lib us (solver_edges x) ps (VConstraints (c :: cs)) (VBool false)) as [r|e]; cbn [bind]; [|reflexivity].
  destruct (multi_answer r relaxed false) as [[r' e]|e]; reflexivity.
Qed.
Lemma ty_no_library b g x w relaxed : b_ad3 b = None -> (ty_method g = "ad3" \/ ty_method g = "ad3+")%string ->
  well_typed g -> typed_instance g x -> length w = ty_size g -> ty_inference b g x w relaxed [] = Err ImportError.
Proof.
  intros Hb Hm W T Hw. destruct (ty_unary_ok g x w W T Hw) as [us [EU _]]. destruct (ty_pairwise_ok g x w W T Hw) as [ps [EP [LP _]]].
  unfold ty_inference, check_size_w. rewrite Hw, Nat.eqb_refl. cbn [ensure bind]. rewrite EU, EP. cbn [bind].
  unfold ty_dispatch. rewrite (solver_edges_ok g x T). cbn [bind]. destruct Hm as [-> | ->]; cbn -[solver_edges].
  - unfold inference_ad3. rewrite Hb. reflexivity.
  - unfold inference_ad3plus. rewrite Hb. reflexivity.
Qed.
Lemma ty_wrong_size b g x y w relaxed cs : length w <> ty_size g ->
  ty_inference b g x w relaxed cs = Err ValueError /\ ty_loss_augmented_inference b g x y w relaxed = Err ValueError.
Proof.
  intro H. unfold ty_inference, ty_loss_augmented_inference, check_size_w.
  replace (length w =? ty_size g)%nat with false by (symmetry; apply Nat.eqb_neq; exact H). split; reflexivity.
Qed.

(** ** the learners' view *)
Lemma ty_feat_ok g x y : well_typed g -> typed_instance g x -> ty_valid_label g x y ->
  ty_joint_feature g x (TDiscrete (map Z.of_nat y)) = Ok (t_feat (ty_task g) x y) /\ length (t_feat (ty_task g) x y) = ty_size g /\
  forall w, length w = ty_size g -> dot w (t_feat (ty_task g) x y) = ty_score g x w (map Z.of_nat y).
Proof.
  intros W T Y. destruct (ty_joint_discrete g x (map Z.of_nat y) W T Y) as [psi [E [L S]]]. cbn [t_feat ty_task]. rewrite E. auto.
Qed.
Lemma ty_implements b g x y : well_typed g -> typed_instance g x -> ty_valid_label g x y ->
  implements (ty_smodel b g) (ty_task g) (ty_size g) x y.
Proof.
  intros W T Y. split; [exact Y|]. split; [cbn [t_loss ty_task]; apply hamming_refl|].
  intros y' Y'. destruct (ty_feat_ok g x y' W T Y') as [E [L _]]. split; [exact L|]. split; [exact E|].
  cbn [ty_smodel sm_tuple sm_loss t_loss ty_task]. apply (ty_loss_ok g x y y' W Y).
  destruct Y as [LY _], Y' as [LY' _]. rewrite map_length in LY, LY'. congruence.
Qed.
Lemma ty_exact_laug b lib plus g x y w : b_ad3 b = Some lib -> ty_method g = method_of plus ->
  well_typed g -> typed_instance g x -> exact_typed lib plus g x -> length w = ty_size g -> ty_valid_label g x y ->
  exact_laug (ty_smodel b g) (ty_task g) w x y.
Proof.
  intros Hb Hm W T EX Hw Y. destruct (ty_laug_exact b lib plus g x y w false Hb Hm W T EX Hw Y) as [yl [E [TL B]]].
  exists yl. split; [cbn [sm_laug ty_smodel]; rewrite E; reflexivity|]. split; [exact TL|]. intros y' Y'.
  rewrite (proj2 (proj2 (ty_feat_ok g x y' W T Y'))) by exact Hw. rewrite (proj2 (proj2 (ty_feat_ok g x yl W T TL))) by exact Hw. apply (B y' Y').
Qed.
Lemma ty_exact_inference b lib plus g x w : b_ad3 b = Some lib -> ty_method g = method_of plus ->
  well_typed g -> typed_instance g x -> exact_typed lib plus g x -> length w = ty_size g ->
  exact_inference (ty_smodel b g) (ty_task g) w x.
Proof.
  intros Hb Hm W T EX Hw. destruct (ty_inference_exact b lib plus g x w false Hb Hm W T EX Hw) as [yl [E [TL B]]].
  exists yl. split; [cbn [sm_inference ty_smodel]; rewrite E; reflexivity|]. split; [exact TL|]. intros y' Y'.
  rewrite (proj2 (proj2 (ty_feat_ok g x y' W T Y'))) by exact Hw. rewrite (proj2 (proj2 (ty_feat_ok g x yl W T TL))) by exact Hw. apply (B _ Y').
Qed.

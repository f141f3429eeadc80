From Coq Require Import ZArith String Lia ZifyBool.
From Verif Require Import Proofs.Arrays Spec.SingleTypeSpec Model.Convert Model.Instances Proofs.LossProofs Proofs.EdgeFeatureProofs
  Proofs.TypedJoint Proofs.TypedProofs Proofs.InferenceProofs Proofs.MaxProdProofs.
#[local] Open Scope nat_scope.

Section One.
Variables (k nf ne : nat) (cw : list Qc) (meth : string) (exc : bool).
Notation g := (EFCRF k nf ne [] []).
Notation gt := (TyCRF [k] [nf] [[ne]] [cw] meth exc).

Lemma size_same : ty_size gt = ef_size g.
Proof. unfold ty_size, ty_size_unaries, ty_size_pairwise, ty_nef, ty_ns, ef_size. cbn. lia. Qed.
Lemma size_unaries_same : ty_size_unaries gt = k * nf.
Proof. unfold ty_size_unaries. cbn. lia. Qed.

Lemma edges_checked x : forallb (edge_in (mrows (ex_features x)) (mrows (ex_features x)))
    (map (fun e => (Z.of_nat (fst e), Z.of_nat (snd e))) (ex_edges x)) = true <-> edges_exist x.
Proof.
  unfold edges_exist. rewrite forallb_forall, Forall_forall. split.
  - intros H e He. specialize (H _ (in_map (fun e => (Z.of_nat (fst e), Z.of_nat (snd e))) _ _ He)).
    apply edge_in_spec in H. cbn [fst snd] in H. lia.
  - intros H e He. apply in_map_iff in He as [q [<- Hq]]. apply edge_in_spec. cbn [fst snd]. specialize (H _ Hq). lia.
Qed.

Lemma check_one x :
  ty_check_x gt (convert_single x) =
  (let! _ := ensure (mcols (ex_features x) =? nf) ValueError in
   let! _ := ensure (forallb (edge_in (mrows (ex_features x)) (mrows (ex_features x)))
                       (map (fun e => (Z.of_nat (fst e), Z.of_nat (snd e))) (ex_edges x))) ValueError in
   let! _ := ensure (length (ex_edges x) =? mrows (ex_edge_features x)) ValueError in
   ensure (mcols (ex_edge_features x) =? ne) ValueError).
Proof.
  unfold ty_check_x, ty_check_nodes, ty_types, ty_node_features, ty_edges, ty_edge_feats, ty_nef, convert_single, type_pairs.
  cbn [ty_states ty_features ty_edge_features tx_nodes tx_edges tx_edge_features length combine map fst snd concat app
    list_prod seq nth nth_error Nat.mul Nat.add Nat.eqb ensure bind mapM forallb andb].
  rewrite map_length, ?andb_true_r.
  destruct (mcols (ex_features x) =? nf); [|reflexivity]. cbn [ensure bind].
  destruct (forallb _ _); reflexivity.
Qed.
Lemma check_exist x : edges_exist x -> ty_check_x gt (convert_single x) = ef_check_x g x.
Proof.
  intro H. rewrite check_one. apply edges_checked in H. rewrite H. unfold ef_check_x. cbn [ef_features ef_edge_features ensure bind].
  reflexivity.
Qed.
Lemma check_iff x : ty_check_x gt (convert_single x) = Ok tt <-> ef_check_x g x = Ok tt /\ edges_exist x.
Proof.
  split.
  - intro H. assert (E : edges_exist x).
    { apply edges_checked. rewrite check_one in H. destruct (mcols (ex_features x) =? nf); [|discriminate].
      cbn [ensure bind] in H. destruct (forallb _ _); [reflexivity|discriminate]. }
    split; [|exact E]. rewrite <- (check_exist x E). exact H.
  - intros [H E]. rewrite (check_exist x E). exact H.
Qed.
Lemma check_fails x : ty_check_x gt (convert_single x) = Ok tt \/ ty_check_x gt (convert_single x) = Err ValueError.
Proof.
  rewrite check_one. destruct (_ =? nf); [|right; reflexivity]. cbn [ensure bind].
  destruct (forallb _ _); [|right; reflexivity]. cbn [ensure bind].
  destruct (_ =? mrows _); [|right; reflexivity]. cbn [ensure bind]. destruct (_ =? ne); [left|right]; reflexivity.
Qed.

(** ** joint features *)
Lemma wrap_nats y : Forall (fun s => s < k) y -> mapM (wrap k) (zminus (map Z.of_nat y) 0) = Ok y.
Proof.
  induction 1 as [|s y Hs _ IH]; [reflexivity|]. unfold zminus in *. cbn [map mapM].
  rewrite wrap_ok by lia. cbn [bind]. rewrite IH. cbn [bind]. do 2 f_equal. lia.
Qed.
Lemma checked_labels x y : labels_ok g x y -> ty_check_xy gt (convert_single x) (map Z.of_nat y) = Ok tt.
Proof.
  intros [L H]. unfold ty_check_xy, ty_node_features, convert_single, type_starts, ty_types.
  cbn [ty_states ty_features tx_nodes combine map fst snd length seq firstn list_sum skipn Nat.add fold_right].
  rewrite map_length, L, Nat.add_0_r, Nat.eqb_refl. cbn [ensure bind check_types].
  destruct (mrows (ex_features x) =? 0); [reflexivity|].
  rewrite firstn_all2 by (rewrite map_length; lia).
  assert (A : forallb (fun z => (0 <=? z)%Z) (map Z.of_nat y) = true).
  { apply forallb_forall. intros z Hz. apply in_map_iff in Hz as [s [<- _]]. apply Z.leb_le. lia. }
  rewrite A. cbn [ensure bind].
  assert (B : forallb (fun z => (z <? Z.of_nat (k + 0))%Z) (map Z.of_nat y) = true).
  { apply forallb_forall. intros z Hz. apply in_map_iff in Hz as [s [<- Hs]]. cbn in H. rewrite Forall_forall in H. specialize (H _ Hs). cbv beta in H. apply Z.ltb_lt. lia. }
  change (Z.of_nat 0) with 0%Z. rewrite A. cbn [ensure bind]. rewrite B. reflexivity.
Qed.
Lemma mapM_zindex (y : list nat) (f : nat * nat -> nat) es : Forall (fun e => f e < length y) es ->
  mapM (fun e => zindex (map Z.of_nat y) (Z.of_nat 0 + Z.of_nat (f e))) es = Ok (map (fun e => Z.of_nat (nth (f e) y 0)) es).
Proof.
  induction 1 as [|e es He _ IH]; [reflexivity|]. cbn [mapM map].
  rewrite (zindex_ok _ _ 0%Z) by (rewrite map_length; lia). cbn [bind]. rewrite IH. cbn [bind]. do 2 f_equal.
  change (Z.of_nat 0) with 0%Z. rewrite Z.add_0_l, Nat2Z.id. change 0%Z with (Z.of_nat 0). apply map_nth.
Qed.
Lemma mapM_map {A B C} (f : B -> res C) (h : A -> B) l : mapM f (map h l) = mapM (fun a => f (h a)) l.
Proof. induction l as [|a l IH]; [reflexivity|]. cbn [map mapM]. rewrite IH. reflexivity. Qed.
Lemma zipw_maps {A B C D} (f : B -> C -> D) (h : A -> B) (h' : A -> C) l : zipw f (map h l) (map h' l) = map (fun a => f (h a) (h' a)) l.
Proof. induction l as [|a l IH]; [reflexivity|]. cbn. rewrite IH. reflexivity. Qed.

Lemma edge_hots_one x y : edges_exist x -> labels_ok g x y ->
  edge_hots gt [mrows (ex_features x)] (map Z.of_nat y) (0, 0)
    (map (fun e => (Z.of_nat (fst e), Z.of_nat (snd e))) (ex_edges x)) =
  one_hot (k * k) (map (fun e => nth (snd e) y 0 + k * nth (fst e) y 0) (ex_edges x)).
Proof.
  intros E [L H]. unfold edge_hots, ty_ns, type_starts.
  cbn [ty_states fst snd nth firstn list_sum length seq map fold_right].
  rewrite map_length. destruct (length (ex_edges x) =? 0) eqn:Z0.
  { apply Nat.eqb_eq in Z0. apply length_zero_iff_nil in Z0. rewrite Z0. reflexivity. }
  unfold edges_exist in E.
  assert (E1 : Forall (fun e : nat * nat => fst e < length y) (ex_edges x)) by (eapply Forall_impl; [|exact E]; cbn; intros; lia).
  assert (E2 : Forall (fun e : nat * nat => snd e < length y) (ex_edges x)) by (eapply Forall_impl; [|exact E]; cbn; intros; lia).
  rewrite !mapM_map. cbn [fst snd]. rewrite (mapM_zindex y fst _ E1), (mapM_zindex y snd _ E2). cbn [bind].
  assert (N : forall i, nth i y 0 < k \/ i >= length y).
  { intro i. destruct (Nat.lt_ge_cases i (length y)) as [Hi|Hi]; [left|right; lia].
    cbn in H. rewrite Forall_forall in H. apply (H _ (nth_In y 0 Hi)). }
  assert (A : forall f : nat * nat -> nat, Forall (fun e => f e < length y) (ex_edges x) ->
     forallb (fun z => (0 <=? z)%Z) (zminus (map (fun e => Z.of_nat (nth (f e) y 0)) (ex_edges x)) 0)
     && forallb (fun z => (z <=? Z.of_nat k)%Z) (zminus (map (fun e => Z.of_nat (nth (f e) y 0)) (ex_edges x)) 0) = true).
  { intros f Hf. apply andb_true_intro. split; apply forallb_forall; intros z Hz; unfold zminus in Hz; rewrite map_map in Hz;
      apply in_map_iff in Hz as [e [<- He]]; rewrite Forall_forall in Hf; specialize (Hf _ He); destruct (N (f e)); lia. }
  rewrite (A fst E1), (A snd E2). cbn [ensure bind]. unfold zminus. rewrite !map_map, zipw_maps.
  rewrite mapM_map.
  assert (M : mapM (fun e => wrap (k * k) (Z.of_nat (nth (snd e) y 0) - Z.of_nat 0 + Z.of_nat k * (Z.of_nat (nth (fst e) y 0) - Z.of_nat 0))) (ex_edges x)
    = Ok (map (fun e => nth (snd e) y 0 + k * nth (fst e) y 0) (ex_edges x))).
  { apply mapM_ok. intros e He. rewrite Forall_forall in E1, E2. specialize (E1 _ He). specialize (E2 _ He).
    destruct (N (fst e)) as [N1|N1]; [|lia]. destruct (N (snd e)) as [N2|N2]; [|lia].
    replace (Z.of_nat (nth (snd e) y 0%nat) - Z.of_nat 0%nat + Z.of_nat k * (Z.of_nat (nth (fst e) y 0%nat) - Z.of_nat 0%nat))%Z
      with (Z.of_nat (nth (snd e) y 0 + k * nth (fst e) y 0)) by lia.
    rewrite wrap_ok by nia. rewrite Nat2Z.id. reflexivity. }
  rewrite M. reflexivity.
Qed.

Lemma marginals_one x y : edges_exist x -> labels_ok g x y ->
  ty_marginals gt (convert_single x) (TDiscrete (map Z.of_nat y)) =
  (let! m := ef_marginals k (mrows (ex_features x)) (ex_edges x) (EDiscrete y) in Ok ([fst m], [snd m])).
Proof.
  intros E H. assert (H' := H). destruct H' as [L R]. unfold ty_marginals. rewrite (checked_labels x y H). cbn [bind].
  unfold ef_marginals. rewrite (proj2 (Nat.eqb_eq _ _) L). cbn [ensure bind].
  unfold ty_node_features, convert_single, ty_types, ty_edges, type_starts, type_pairs.
  cbn [ty_states ty_features tx_nodes tx_edges combine map fst snd length seq firstn list_sum list_prod app fold_right one_hots].
  rewrite firstn_all2 by (rewrite map_length; lia). cbn in R. rewrite (wrap_nats y R). cbn [bind].
  rewrite (proj2 (Nat.eqb_eq _ _) L). cbn [ensure bind].
  destruct (one_hot k y) as [um|e] eqn:EU; [|reflexivity]. cbn [bind mapM fst snd].
  rewrite (edge_hots_one x y E H). unfold edges_exist in E.
  rewrite !mapM_index.
  2: { apply Forall_map. eapply Forall_impl; [|exact E]; cbn; intros; lia. }
  2: { apply Forall_map. eapply Forall_impl; [|exact E]; cbn; intros; lia. }
  cbn [bind]. rewrite !map_map, zipw_maps. destruct (one_hot (k * k) _) as [pw|e]; reflexivity.
Qed.

Lemma joint_of_marginals x yt ye : edges_exist x ->
  (ef_check_x g x = Ok tt -> ty_marginals gt (convert_single x) yt = (let! m := ef_marginals k (mrows (ex_features x)) (ex_edges x) ye in Ok ([fst m], [snd m]))) ->
  (forall e, ef_joint_feature g x ye = Err e -> e = ValueError \/ exists e', ef_marginals k (mrows (ex_features x)) (ex_edges x) ye = Err e') ->
  ty_joint_feature gt (convert_single x) yt = ef_joint_feature g x ye.
Proof.
  intros E M HE. unfold ty_joint_feature, ef_joint_feature in *. rewrite (check_exist x E).
  destruct (ef_check_x g x) as [[]|e] eqn:EC; [|reflexivity]. cbn [bind] in *. rewrite (M eq_refl).
  unfold ef_joint_feature_core in *. cbn [ef_states] in *.
  destruct (ef_marginals k _ _ ye) as [[um pw]|e] eqn:EM; [|reflexivity]. cbn [bind fst snd] in *.
  unfold ty_node_features, ty_edge_feats, convert_single.
  cbn [tx_nodes tx_edge_features ty_features ty_edge_features concat app combine map fst snd mapM ef_sym ef_anti sym_rows bind] in *.
  destruct (mat_mul (mat_T um) (ex_features x)) as [u|e1] eqn:EU; cbn [bind hstack concat] in *.
  - destruct (mat_mul (mat_T (ex_edge_features x)) pw) as [p|e2]; cbn [bind hstack concat]; [|reflexivity]. rewrite !app_nil_r. reflexivity.
  - destruct (mat_mul (mat_T (ex_edge_features x)) pw) as [p|e2]; cbn [bind sym_rows] in *.
    + reflexivity.
    + specialize (HE e2 eq_refl). destruct HE as [->|[e' He']]; [|discriminate].
      unfold mat_mul in EU. destruct (_ =? _) in EU; congruence.
Qed.
Lemma mat_mul_err A B e : mat_mul A B = Err e -> e = ValueError.
Proof. unfold mat_mul. destruct (_ =? _); congruence. Qed.
Lemma joint_errors x ye e : ef_joint_feature g x ye = Err e ->
  e = ValueError \/ exists e', ef_marginals k (mrows (ex_features x)) (ex_edges x) ye = Err e'.
Proof.
  unfold ef_joint_feature, ef_check_x, ef_joint_feature_core. cbn [ef_features ef_edge_features ef_states ef_sym ef_anti].
  destruct (_ =? nf); [|cbn; left; congruence]. cbn [ensure bind]. destruct (_ =? mrows _); [|cbn; left; congruence].
  cbn [ensure bind]. destruct (_ =? ne); [|cbn; left; congruence]. cbn [ensure bind].
  destruct (ef_marginals k _ _ ye) as [[um pw]|e']; [|right; eauto]. cbn [bind sym_rows].
  destruct (mat_mul _ pw) eqn:E1; [|cbn; intro Q; injection Q as <-; left; eapply mat_mul_err; eauto]. cbn [bind sym_rows].
  destruct (mat_mul _ (ex_features x)) eqn:E2; [discriminate|cbn; intro Q; injection Q as <-; left; eapply mat_mul_err; eauto].
Qed.
Lemma joint_one x y : edges_exist x -> labels_ok g x y ->
  ty_joint_feature gt (convert_single x) (TDiscrete (map Z.of_nat y)) = ef_joint_feature g x (EDiscrete y).
Proof. intros E H. apply joint_of_marginals; [exact E| |apply joint_errors]. intros _. apply marginals_one; assumption. Qed.

Lemma reshape_same um : mat_ok um -> reshape (ravel um) (mrows um) (mcols um) = Ok um.
Proof.
  intro H. unfold reshape. rewrite (ravel_ok_length um H), Nat.eqb_refl. f_equal.
  apply mat_eq_ext; [apply mtab_ok|exact H|reflexivity|reflexivity|]. cbn [mtab mrows mcols]. intros i j Hi Hj.
  rewrite mget_mtab by assumption. destruct H as [L F]. unfold ravel, get1, mget, get2.
  rewrite (concat_nth_const (mdat um) (mcols um) i j 0%Qc F) by lia. reflexivity.
Qed.
Lemma joint_relaxed_one x um pm : edges_exist x -> mat_ok um -> mrows um = mrows (ex_features x) -> mcols um = k ->
  ty_joint_feature gt (convert_single x) (TRelaxed (MList [um]) (MList [pm])) = ef_joint_feature g x (ERelaxed (ravel um) pm).
Proof.
  intros E O R C. apply joint_of_marginals; [exact E| |apply joint_errors]. intros _. unfold ty_marginals, ef_marginals.
  rewrite <- R, <- C, (reshape_same um O). reflexivity.
Qed.

(** ** potentials *)
Lemma firstn_exact {A} (l : list A) n : length l = n -> firstn n l = l.
Proof. intros <-. apply firstn_all. Qed.
Lemma unary_one x w : ef_check_x g x = Ok tt ->
  ty_unary gt (convert_single x) w = (let! U := ef_unary g x w in Ok [U]).
Proof.
  intro C. unfold ty_unary, ef_unary. rewrite size_same. destruct (check_size_w (ef_size g) w) as [[]|e]; [|reflexivity]. cbn [bind].
  rewrite C. cbn [bind]. unfold ef_unary_core, ty_node_features, convert_single.
  cbn [ef_states ef_features tx_nodes ty_features ty_states combine map fst snd unary_loop].
  destruct (reshape _ k nf) as [b|]; [|reflexivity]. cbn [bind].
  destruct (mat_mul (ex_features x) (mat_T b)) as [u|]; [|reflexivity]. cbn [bind fst snd].
  rewrite size_unaries_same, Nat.add_0_r, Nat.eqb_refl. reflexivity.
Qed.
Lemma pairwise_one x w : ef_check_x g x = Ok tt -> 0 < k -> 0 < ne ->
  ty_pairwise gt (convert_single x) w = (let! P := ef_pairwise g x w in Ok [P]).
Proof.
  intros C Hk Hne. unfold ty_pairwise, ef_pairwise. rewrite size_same, size_unaries_same.
  destruct (check_size_w (ef_size g) w) as [[]|e] eqn:EW; [|reflexivity]. cbn [bind]. rewrite C. cbn [bind].
  unfold ef_pairwise_core, ty_edge_feats, convert_single, ty_types, type_pairs, pairwise_loop, ty_ns.
  cbn [ef_states ef_features ef_edge_features ef_sym ef_anti tx_edge_features ty_edge_features ty_states length seq list_prod concat map app combine fst snd nth].
  assert (Ec : mcols (ex_edge_features x) = ne).
  { unfold ef_check_x in C. cbn [ef_features ef_edge_features] in C. destruct (_ =? nf); [|discriminate]. cbn [ensure bind] in C.
    destruct (_ =? mrows _); [|discriminate]. cbn [ensure bind] in C. destruct (mcols (ex_edge_features x) =? ne) eqn:Q; [|discriminate]. apply Nat.eqb_eq; assumption. }
  rewrite Ec. replace (ne * k * k =? 0) with false by (symmetry; apply Nat.eqb_neq; nia).
  replace (ne =? 0) with false by (symmetry; apply Nat.eqb_neq; lia).
  assert (LW : length w = k * nf + ne * (k * k)).
  { unfold check_size_w in EW. destruct (length w =? ef_size g) eqn:Q; [|discriminate]. apply Nat.eqb_eq in Q. exact Q. }
  rewrite (firstn_exact (skipn (k * nf) w)) by (rewrite skipn_length, LW; lia).
  destruct (reshape _ ne _) as [m|]; [|reflexivity]. cbn [bind].
  destruct (mat_mul (ex_edge_features x) m) as [d|]; [|reflexivity]. cbn [bind].
  destruct (_ =? _); reflexivity.
Qed.
Lemma pairwise_none x w : ef_check_x g x = Ok tt -> length w = ef_size g -> ne = 0 ->
  ty_pairwise gt (convert_single x) w = Ok [Pw3 0 0 0 []] /\ ef_pairwise g x w = Err ValueError.
Proof.
  intros C LW N. unfold ty_pairwise, ef_pairwise. rewrite size_same. unfold check_size_w. rewrite (proj2 (Nat.eqb_eq _ _) LW).
  cbn [ensure bind]. rewrite C. cbn [bind].
  assert (Ec : mcols (ex_edge_features x) = ne).
  { unfold ef_check_x in C. cbn [ef_features ef_edge_features] in C. destruct (_ =? nf); [|discriminate]. cbn [ensure bind] in C.
    destruct (_ =? mrows _); [|discriminate]. cbn [ensure bind] in C. destruct (mcols (ex_edge_features x) =? ne) eqn:Q; [|discriminate]. apply Nat.eqb_eq; assumption. }
  split.
  - unfold ty_edge_feats, convert_single, ty_types, type_pairs, pairwise_loop, ty_ns.
    cbn [tx_edge_features ty_edge_features ty_states length seq list_prod concat map app combine fst snd nth]. rewrite Ec, N. reflexivity.
  - unfold ef_pairwise_core. cbn [ef_edge_features]. rewrite N. reflexivity.
Qed.
Lemma laug_one (U : mat) y : length y = mrows U ->
  ty_loss_augment gt [U] (map Z.of_nat y) = (let! U' := loss_augment_unaries U y cw in Ok [U']).
Proof.
  intro L. unfold ty_loss_augment, type_starts. cbn [ty_weights ty_states length seq map firstn list_sum combine laug_loop fold_right].
  rewrite firstn_all2 by (rewrite map_length; lia).
  replace (map (c_label U cw) (zminus (map Z.of_nat y) 0)) with y.
  2: { unfold zminus. rewrite !map_map. rewrite <- (map_id y) at 1. apply map_ext. intro s. unfold c_label.
       change (Z.of_nat 0) with 0%Z. rewrite Z.sub_0_r. destruct (Z.of_nat s <? 0)%Z eqn:Q; lia. }
  destruct (loss_augment_unaries U y cw); reflexivity.
Qed.
Lemma edges_one x : nat_edges (ty_edges (convert_single x)) = Ok [ex_edges x].
Proof.
  unfold nat_edges, ty_edges, convert_single. cbn [tx_edges map mapM]. rewrite mapM_map. cbn [fst snd].
  rewrite (mapM_ok _ (fun e => e)).
  - rewrite map_id. reflexivity.
  - intros [a b] _. cbn [fst snd]. replace ((0 <=? Z.of_nat a) && (0 <=? Z.of_nat b))%Z with true by (symmetry; apply andb_true_intro; lia).
    cbn [ensure bind]. rewrite !Nat2Z.id. reflexivity.
Qed.
End One.

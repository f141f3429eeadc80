From Coq Require Import String ZArith.
From Verif Require Import Model.Typed Spec.TypedSpec Proofs.Arrays Proofs.LossProofs Proofs.EdgeFeatureProofs
  Proofs.NSlackProofs5 Proofs.TypedProofs Proofs.TypedLabels Proofs.TypedScore.

(** marginals of the right shapes *)
Definition shapes_ok (g : ty_crf) (x : typed_x) (ums pms : list mat) : Prop :=
  let n := length (ty_states g) in
  length ums = n /\ length pms = (n * n)%nat /\
  (forall t, (t < n)%nat -> mrows (nth t ums (Mat 0 0 [])) = x_rows x t /\ mcols (nth t ums (Mat 0 0 [])) = part (ty_states g) t) /\
  (forall a b, (a < n)%nat -> (b < n)%nat ->
     mrows (nth (a * n + b) pms (Mat 0 0 [])) = length (x_edges n x a b) /\
     mcols (nth (a * n + b) pms (Mat 0 0 [])) = (part (ty_states g) a * part (ty_states g) b)%nat).

Lemma mapM_combine_total {A B C} (f : A * B -> res C) l r (da : A) (db : B) :
  length l = length r ->
  (forall k, (k < length l)%nat -> exists c, f (nth k l da, nth k r db) = Ok c) -> exists res, mapM f (combine l r) = Ok res.
Proof.
  intros L H. apply mapM_total. intros q Hq. apply (In_nth _ _ (da, db)) in Hq. destruct Hq as [k [Hk <-]]. rewrite combine_length in Hk.
  rewrite nth_combine_d by lia. apply H. lia.
Qed.

Lemma split_index n k : (k < n * n)%nat -> (k / n < n)%nat /\ (k mod n < n)%nat /\ k = (k / n * n + k mod n)%nat.
Proof.
  intro H. assert (N0 : (0 < n)%nat) by nia. split; [apply Nat.div_lt_upper_bound; lia|]. split; [apply Nat.mod_upper_bound; lia|].
  rewrite (Nat.div_mod k n) at 1 by lia. lia.
Qed.

Lemma joint_core g x y ums pms : well_typed g -> typed_instance g x -> ty_marginals g x y = Ok (ums, pms) -> shapes_ok g x ums pms ->
  let n := length (ty_states g) in
  exists psi, ty_joint_feature g x y = Ok psi /\ length psi = ty_size g /\
    forall w, length w = ty_size g -> dot w psi =
      sumn n (fun t => sumn (x_rows x t) (fun i => sumn (part (ty_states g) t) (fun s =>
        mget (nth t ums (Mat 0 0 [])) i s * type_score g w t (x_feat x t i) s))) +
      sumn n (fun a => sumn n (fun b => sumn (length (x_edges n x a b)) (fun e =>
        sumn (part (ty_states g) a) (fun s => sumn (part (ty_states g) b) (fun s' =>
          mget (nth (a * n + b) pms (Mat 0 0 [])) e (s * part (ty_states g) b + s') *
          pair_types_score g w a b (x_edge_feat n x a b e) s s'))))).
Proof.
  intros W T M (LU & LP & SU & SP) n. fold n in LU, LP, SU, SP.
  pose proof W as [N0 [LF _]]. fold n in N0, LF. pose proof T as (LN & _ & LE & _ & TE). fold n in LN, LE, TE.
  assert (LNF : length (ty_node_features g x) = n) by (apply node_features_length; assumption).
  assert (LEF : length (ty_edge_feats g x) = (n * n)%nat) by (apply edge_feats_length; assumption).
  unfold ty_joint_feature. rewrite (proj2 (check_x_spec g x W) T). cbn [bind]. rewrite M. cbn [bind].
  set (f := fun q : mat * mat => _).
  (* unary blocks *)
  assert (FU : forall t, (t < n)%nat -> exists M, mat_mul (mat_T (nth t ums (Mat 0 0 []))) (nth t (ty_node_features g x) (Mat 0 0 [])) = Ok M /\
     length (ravel M) = (part (ty_states g) t * part (ty_features g) t)%nat /\
     forall v, length v = (part (ty_states g) t * part (ty_features g) t)%nat ->
      dot v (ravel M) = sumn (x_rows x t) (fun i => sumn (part (ty_states g) t) (fun a => sumn (part (ty_features g) t) (fun b =>
        mget (nth t ums (Mat 0 0 [])) i a * (get1 v (a * part (ty_features g) t + b) * x_feat x t i b))))).
  { intros t Ht. destruct (SU t Ht) as [S1 S2]. destruct (node_features_nth g x t W LN Ht) as [R [G _]].
    destruct (tmul_ok (nth t ums (Mat 0 0 [])) (nth t (ty_node_features g x) (Mat 0 0 []))) as [Mx [E [L V]]]; [congruence|].
    exists Mx. split; [exact E|]. rewrite (node_cols g x t W T Ht), S2 in L, V. split; [exact L|]. intros v Hv. rewrite V by exact Hv. rewrite S1.
    apply sumn_ext. intros i Hi. apply sumn_ext. intros a Ha. apply sumn_ext. intros b Hb. rewrite G. reflexivity. }
  destruct (mapM_combine_total f ums (ty_node_features g x) (Mat 0 0 []) (Mat 0 0 [])) as [us Eus]; [congruence| |].
  { intros k Hk. destruct (FU k ltac:(lia)) as [Mx [E _]]. exists (ravel Mx). unfold f. cbn [fst snd]. rewrite E. reflexivity. }
  rewrite Eus. cbn [bind]. pose proof (mapM_length _ _ _ Eus) as Lus. rewrite combine_length, LU, LNF, Nat.min_id in Lus.
  assert (NU : forall t, (t < n)%nat -> exists M, mat_mul (mat_T (nth t ums (Mat 0 0 []))) (nth t (ty_node_features g x) (Mat 0 0 [])) = Ok M /\ nth t us [] = ravel M).
  { intros t Ht. destruct (FU t Ht) as [Mx [E _]]. exists Mx. split; [exact E|].
    pose proof (mapM_nth _ _ _ t (Mat 0 0 [], Mat 0 0 []) [] Eus ltac:(rewrite combine_length; lia)) as H.
    rewrite nth_combine_d in H by lia. unfold f in H. cbn [fst snd] in H. rewrite E in H. cbn [bind] in H. congruence. }
  (* pairwise blocks *)
  assert (FP : forall a b, (a < n)%nat -> (b < n)%nat ->
     let D := part (nth a (ty_edge_features g) []) b in let AB := (part (ty_states g) a * part (ty_states g) b)%nat in
     exists M, mat_mul (mat_T (nth (a * n + b) (ty_edge_feats g x) (Mat 0 0 []))) (nth (a * n + b) pms (Mat 0 0 [])) = Ok M /\
     length (ravel M) = (D * AB)%nat /\
     forall v, length v = (D * AB)%nat ->
      dot v (ravel M) = sumn (length (x_edges n x a b)) (fun e => sumn D (fun f => sumn AB (fun c =>
        x_edge_feat n x a b e f * (get1 v (f * AB + c) * mget (nth (a * n + b) pms (Mat 0 0 [])) e c))))).
  { intros a b Ha Hb D AB. destruct (SP a b Ha Hb) as [S1 S2]. destruct (edge_feats_nth g x a b W LE Ha Hb) as [R [G _]]. fold n in R, G.
    destruct (TE a b Ha Hb) as [_ [TR _]]. rewrite TR in R. pose proof (ef_cols g x a b W T Ha Hb) as C. fold n in C. fold D in C.
    destruct (tmul_ok (nth (a * n + b) (ty_edge_feats g x) (Mat 0 0 [])) (nth (a * n + b) pms (Mat 0 0 []))) as [Mx [E [L V]]]; [congruence|].
    exists Mx. split; [exact E|]. rewrite C, S2 in L, V. split; [exact L|]. intros v Hv. rewrite V by exact Hv. rewrite R.
    apply sumn_ext. intros i Hi. apply sumn_ext. intros c Hc. apply sumn_ext. intros d Hd. rewrite G. reflexivity. }
  destruct (mapM_combine_total f (ty_edge_feats g x) pms (Mat 0 0 []) (Mat 0 0 [])) as [ps Eps]; [congruence| |].
  { intros k Hk. rewrite LEF in Hk. destruct (split_index n k Hk) as [K1 [K2 K3]]. destruct (FP (k / n)%nat (k mod n)%nat K1 K2) as [Mx [E _]].
    exists (ravel Mx). unfold f. cbn [fst snd]. rewrite <- K3 in E. rewrite E. reflexivity. }
  pose proof (mapM_length _ _ _ Eps) as Lps. rewrite combine_length, LP, LEF, Nat.min_id in Lps.
  assert (NP : forall a b, (a < n)%nat -> (b < n)%nat -> exists M,
     mat_mul (mat_T (nth (a * n + b) (ty_edge_feats g x) (Mat 0 0 []))) (nth (a * n + b) pms (Mat 0 0 [])) = Ok M /\ nth (a * n + b) ps [] = ravel M).
  { intros a b Ha Hb. pose proof (pair_lt a b n Ha Hb). destruct (FP a b Ha Hb) as [Mx [E _]]. exists Mx. split; [exact E|].
    pose proof (mapM_nth _ _ _ (a * n + b)%nat (Mat 0 0 [], Mat 0 0 []) [] Eps ltac:(rewrite combine_length; lia)) as H'.
    rewrite nth_combine_d in H' by lia. unfold f in H'. cbn [fst snd] in H'. rewrite E in H'. cbn [bind] in H'. congruence. }
  (* lengths *)
  assert (MU : map (@length Qc) us = map (fun p => fst p * snd p)%nat (combine (ty_states g) (ty_features g))).
  { apply (nth_ext_d _ _ O); [rewrite !map_length, combine_length; fold n; lia|]. intros k Hk. rewrite map_length, Lus in Hk.
    rewrite (nth_map_in _ _ _ []) by lia. rewrite (nth_map_in _ _ _ (0, 0)%nat) by (rewrite combine_length; fold n; lia).
    rewrite nth_combine_d by (fold n; lia). destruct (FU k Hk) as [M1 [E1 [L1 _]]]. destruct (NU k Hk) as [M2 [E2 ->]].
    assert (M2 = M1) by congruence. subst M2. rewrite L1. reflexivity. }
  assert (MP : map (@length Qc) ps = map (fun p => ty_nef g p * ty_ns g (fst p) * ty_ns g (snd p))%nat (type_pairs n)).
  { apply (nth_ext_d _ _ O); [rewrite !map_length, pairs_length; lia|]. intros k Hk. rewrite map_length, Lps in Hk.
    destruct (split_index n k Hk) as [K1 [K2 K3]].
    rewrite (nth_map_in _ _ _ []) by lia. rewrite (nth_map_in _ _ _ (0, 0)%nat) by (rewrite pairs_length; lia).
    rewrite K3. rewrite pairs_nth by assumption. destruct (FP _ _ K1 K2) as [M1 [E1 [L1 _]]]. destruct (NP _ _ K1 K2) as [M2 [E2 ->]].
    assert (M2 = M1) by congruence. subst M2. rewrite L1. unfold ty_nef, ty_ns, part. cbn [fst snd]. lia. }
  assert (HU : hstack us = Ok (concat us)).
  { unfold hstack. destruct us; [simpl in Lus; lia|reflexivity]. }
  assert (HP : hstack ps = Ok (concat ps)).
  { unfold hstack. destruct ps; [simpl in Lps; nia|reflexivity]. }
  rewrite HU. cbn [bind]. rewrite Eps. cbn [bind]. rewrite HP. cbn [bind]. eexists. split; [reflexivity|].
  assert (LCU : length (concat us) = ty_size_unaries g) by (rewrite concat_len, MU; reflexivity).
  assert (LCP : length (concat ps) = ty_size_pairwise g) by (rewrite concat_len, MP; reflexivity).
  split; [rewrite app_length, LCU, LCP; reflexivity|]. intros w Hw.
  rewrite <- (firstn_skipn (ty_size_unaries g) w) at 1. unfold ty_size in Hw.
  rewrite dot_app by (rewrite firstn_length; lia). f_equal.
  - rewrite dot_blocks by (rewrite <- concat_len, LCU, firstn_length; lia). rewrite Lus. apply sumn_ext. intros t Ht.
    destruct (FU t Ht) as [M1 [E1 [L1 V1]]]. destruct (NU t Ht) as [M2 [E2 N2]]. assert (M2 = M1) by congruence. subst M2. rewrite N2, L1.
    assert (BB : before (map (@length Qc) us) t = node_start g t) by (rewrite MU; apply combine_before; fold n; lia).
    assert (BS : (node_start g t + part (ty_states g) t * part (ty_features g) t <= ty_size_unaries g)%nat).
    { rewrite <- BB, <- LCU, concat_len. replace (part (ty_states g) t * part (ty_features g) t)%nat with (part (map (@length Qc) us) t).
      - apply before_part_le. rewrite map_length. lia.
      - unfold part at 1. rewrite (nth_map_in _ _ _ []) by lia. rewrite N2, L1. reflexivity. }
    rewrite V1 by (rewrite firstn_length, skipn_length, firstn_length, BB; lia).
    apply sumn_ext. intros i Hi. apply sumn_ext. intros s Hs. unfold type_score. rewrite <- sumn_mult_l. apply sumn_ext. intros f' Hf'.
    rewrite get1_firstn by nia. rewrite get1_skipn, get1_firstn by (rewrite BB; nia). rewrite BB. ring.
  - rewrite dot_blocks by (rewrite <- concat_len, LCP, skipn_length; lia). rewrite Lps, sumn_mul. apply sumn_ext. intros a Ha. apply sumn_ext. intros b Hb.
    pose proof (pair_lt a b n Ha Hb) as PL.
    destruct (FP a b Ha Hb) as [M1 [E1 [L1 V1]]]. destruct (NP a b Ha Hb) as [M2 [E2 N2]]. assert (M2 = M1) by congruence. subst M2. rewrite N2, L1.
    pose proof (edge_start_before g a b W Ha ltac:(fold n; lia)) as BB. fold n in BB. rewrite <- MP in BB.
    assert (BS : (before (map (@length Qc) ps) (a * n + b) + part (nth a (ty_edge_features g) []) b * (part (ty_states g) a * part (ty_states g) b) <= ty_size_pairwise g)%nat).
    { rewrite <- LCP, concat_len. replace (part (nth a (ty_edge_features g) []) b * (part (ty_states g) a * part (ty_states g) b))%nat with (part (map (@length Qc) ps) (a * n + b)).
      - apply before_part_le. rewrite map_length. lia.
      - unfold part at 1. rewrite (nth_map_in _ _ _ []) by lia. rewrite N2, L1. reflexivity. }
    rewrite V1 by (rewrite firstn_length, skipn_length, skipn_length; lia).
    apply sumn_ext. intros e He. unfold pair_types_score. set (A := part (ty_states g) a). set (B := part (ty_states g) b). set (D := part (nth a (ty_edge_features g) []) b).
    transitivity (sumn D (fun f => sumn A (fun s => sumn B (fun s' =>
      mget (nth (a * n + b) pms (Mat 0 0 [])) e (s * B + s') * (x_edge_feat n x a b e f * get1 w (edge_start g a b + (f * (A * B) + (s * B + s')))))))).
    + apply sumn_ext. intros f' Hf'. rewrite sumn_mul. apply sumn_ext. intros s Hs. apply sumn_ext. intros s' Hs'.
      assert (s * B + s' < A * B)%nat by nia. fold A B D in BS. assert (f' * (A * B) + (s * B + s') < D * (A * B))%nat by nia.
      rewrite get1_firstn by lia. rewrite !get1_skipn. rewrite BB.
      replace (ty_size_unaries g + before (map (@length Qc) ps) (a * n + b) + (f' * (A * B) + (s * B + s')))%nat
        with (ty_size_unaries g + (before (map (@length Qc) ps) (a * n + b) + (f' * (A * B) + (s * B + s'))))%nat by lia. ring.
    + rewrite sumn_swap. apply sumn_ext. intros s Hs. rewrite sumn_swap. apply sumn_ext. intros s' Hs'. rewrite <- sumn_mult_l. reflexivity.
Qed.

(** ** discrete labels *)
Lemma wrap_ok k z : (0 <= z < Z.of_nat k)%Z -> wrap k z = Ok (Z.to_nat z).
Proof.
  intros H. unfold wrap. replace (0 <=? z)%Z with true by (symmetry; apply Z.leb_le; lia).
  replace (z <? Z.of_nat k)%Z with true by (symmetry; apply Z.ltb_lt; lia). reflexivity.
Qed.
Lemma zindex_ok {A} (l : list A) z d : (0 <= z < Z.of_nat (length l))%Z -> zindex l z = Ok (nth (Z.to_nat z) l d).
Proof. intro H. unfold zindex. rewrite wrap_ok by exact H. cbn [bind]. apply index_ok. lia. Qed.

Lemma one_hots_ok (l : list (nat * nat * nat)) : forall y,
  (list_sum (map (fun q => fst (fst q)) l) <= length y)%nat ->
  (forall t i, (t < length l)%nat -> (i < fst (fst (nth t l (0, 0, 0))))%nat ->
     let '(n, k, a) := nth t l (0, 0, 0)%nat in
     (Z.of_nat a <= nth (before (map (fun q => fst (fst q)) l) t + i) y 0%Z < Z.of_nat (a + k))%Z) ->
  exists ms, one_hots l y = Ok ms /\ length ms = length l /\
    forall t, (t < length l)%nat -> let '(n, k, a) := nth t l (0, 0, 0)%nat in
      mrows (nth t ms (Mat 0 0 [])) = n /\ mcols (nth t ms (Mat 0 0 [])) = k /\
      forall i s, (i < n)%nat -> (s < k)%nat ->
        mget (nth t ms (Mat 0 0 [])) i s = ind (s =? Z.to_nat (nth (before (map (fun q => fst (fst q)) l) t + i) y 0%Z - Z.of_nat a))%nat.
Proof.
  induction l as [|[[n k] a] l IH]; intros y Hy HR.
  - exists []. split; [reflexivity|]. split; [reflexivity|]. intros t Ht. simpl in Ht. lia.
  - cbn [map list_sum fold_right fst snd] in Hy. change (fold_right Nat.add 0%nat) with list_sum in Hy.
    destruct (IH (skipn n y)) as [ms [E [L N]]]; [rewrite skipn_length; lia| |].
    { intros t i Ht Hi. specialize (HR (S t) i ltac:(simpl; lia) Hi). cbn [nth map fst snd] in HR. destruct (nth t l (0, 0, 0)%nat) as [[n' k'] a'].
      rewrite before_cons in HR. rewrite nth_skipn, Nat.add_assoc. exact HR. }
    assert (HF : forall i, (i < n)%nat -> (Z.of_nat a <= nth i y 0%Z < Z.of_nat (a + k))%Z).
    { intros i Hi. specialize (HR O i ltac:(simpl; lia) Hi). cbn [nth map fst snd] in HR. rewrite before_0 in HR. exact HR. }
    set (idx := map Z.to_nat (zminus (firstn n y) a)).
    assert (LI : length idx = n) by (unfold idx, zminus; rewrite !map_length, firstn_length; lia).
    assert (NI : forall i, (i < n)%nat -> nth i idx O = Z.to_nat (nth i y 0%Z - Z.of_nat a)).
    { intros i Hi. unfold idx, zminus. rewrite map_map. rewrite (nth_map_in _ _ _ 0%Z) by (rewrite firstn_length; lia). rewrite nth_firstn by exact Hi. reflexivity. }
    assert (EI : mapM (wrap k) (zminus (firstn n y) a) = Ok idx).
    { apply mapM_ok. intros z Hz. unfold zminus in Hz. apply in_map_iff in Hz. destruct Hz as [u [<- Hu]].
      apply (In_nth _ _ 0%Z) in Hu. destruct Hu as [i [Hi <-]]. rewrite firstn_length in Hi. rewrite nth_firstn by lia.
      apply wrap_ok. specialize (HF i ltac:(lia)). lia. }
    cbn [one_hots]. rewrite EI. cbn [bind]. rewrite LI, Nat.eqb_refl. cbn [ensure bind]. rewrite one_hot_ok.
    2:{ apply Forall_forall. intros s Hs. apply (In_nth _ _ O) in Hs. destruct Hs as [i [Hi <-]]. rewrite LI in Hi. rewrite NI by exact Hi.
        specialize (HF i Hi). lia. }
    cbn [bind]. rewrite E. cbn [bind]. eexists. split; [reflexivity|]. split; [simpl; congruence|]. intros t Ht. destruct t as [|t].
    + cbn [nth map fst snd mrows mcols mtab]. rewrite before_0, LI. split; [reflexivity|]. split; [reflexivity|]. intros i s Hi Hs.
      try match goal with |- mget (Mat ?a ?b (tab2 ?a ?b ?f)) _ _ = _ => change (Mat a b (tab2 a b f)) with (mtab a b f) end.
      rewrite mget_mtab by assumption. rewrite NI by exact Hi. reflexivity.
    + cbn [nth map fst snd]. specialize (N t ltac:(simpl in Ht; lia)). destruct (nth t l (0, 0, 0)%nat) as [[n' k'] a'].
      destruct N as [N1 [N2 N3]]. split; [exact N1|]. split; [exact N2|]. intros i s Hi Hs. rewrite N3 by assumption. rewrite before_cons, nth_skipn, Nat.add_assoc. reflexivity.
Qed.

Lemma combined_index A B a b s s' : (a < A)%nat -> (b < B)%nat -> (s < A)%nat -> (s' < B)%nat ->
  ind (s * B + s' =? b + B * a)%nat = ind (s =? a)%nat * ind (s' =? b)%nat.
Proof.
  intros Ha Hb Hs Hs'. destruct (Nat.eqb_spec (s * B + s') (b + B * a)) as [E|E].
  - assert (s = a).
    { destruct (Nat.lt_trichotomy s a) as [L|[L|L]]; [|exact L|].
      - assert ((s + 1) * B <= a * B)%nat by (apply Nat.mul_le_mono_r; lia). lia.
      - assert ((a + 1) * B <= s * B)%nat by (apply Nat.mul_le_mono_r; lia). lia. }
    subst s. assert (s' = b) by lia. subst s'. rewrite !Nat.eqb_refl. reflexivity.
  - destruct (Nat.eqb_spec s a) as [->|]; [|simpl; ring]. destruct (Nat.eqb_spec s' b) as [->|]; [|simpl; ring]. exfalso. apply E. lia.
Qed.

Lemma typed_lab_lt states rows y t i : typed_labelling states rows y -> (t < length states)%nat -> (i < part rows t)%nat ->
  (typed_lab states rows y t i < part states t)%nat.
Proof. intros [_ H] Ht Hi. specialize (H t i Ht Hi). unfold typed_lab. lia. Qed.

Lemma raw_rows_before g x t : (length (ty_states g) <= length (tx_nodes x))%nat -> (t <= length (ty_states g))%nat ->
  list_sum (firstn t (map (fun o : option mat => match o with None => O | Some m => mrows m end) (tx_nodes x))) =
  before (type_rows (length (ty_states g)) x) t.
Proof.
  intros L H. unfold before. f_equal. apply (nth_ext_d _ _ O); [rewrite !firstn_length, map_length, rows_length; lia|].
  intros k Hk. rewrite firstn_length, map_length in Hk. rewrite !nth_firstn by lia. rewrite (nth_map_in _ _ _ None) by lia.
  change (nth k (type_rows (length (ty_states g)) x) O) with (part (type_rows (length (ty_states g)) x) k). rewrite rows_part by lia.
  unfold x_rows. destruct (nth k (tx_nodes x) None); reflexivity.
Qed.

Lemma edge_hots_ok g x y a b : well_typed g -> typed_instance g x ->
  let n := length (ty_states g) in
  let lab := typed_lab (ty_states g) (type_rows n x) y in
  typed_labelling (ty_states g) (type_rows n x) y -> (a < n)%nat -> (b < n)%nat ->
  exists m, edge_hots g (map (fun o => match o with None => O | Some m => mrows m end) (tx_nodes x)) y (a, b) (x_edges n x a b) = Ok m /\
    mrows m = length (x_edges n x a b) /\ mcols m = (part (ty_states g) a * part (ty_states g) b)%nat /\
    forall e s s', (e < length (x_edges n x a b))%nat -> (s < part (ty_states g) a)%nat -> (s' < part (ty_states g) b)%nat ->
      let ed := nth e (x_edges n x a b) (0, 0)%Z in
      mget m e (s * part (ty_states g) b + s') = ind (s =? lab a (Z.to_nat (fst ed)))%nat * ind (s' =? lab b (Z.to_nat (snd ed)))%nat.
Proof.
  intros W T n lab Y Ha Hb. pose proof T as (LN & _ & _ & _ & TE). fold n in LN, TE. destruct (TE a b Ha Hb) as [TF _].
  set (es := x_edges n x a b) in *. unfold edge_hots. cbn [fst snd].
  destruct (Nat.eqb_spec (length es) 0) as [Z|Z].
  { eexists. split; [reflexivity|]. cbn [mat_zeros mtab mrows mcols]. split; [congruence|]. split; [reflexivity|]. intros e s s' He. lia. }
  rewrite (raw_rows_before g x a), (raw_rows_before g x b) by (fold n; lia). fold n. rewrite !starts_nth by (fold n; lia).
  set (o1 := before (type_rows n x) a). set (o2 := before (type_rows n x) b).
  assert (TN : forall e, (e < length es)%nat -> let ed := nth e es (0, 0)%Z in (0 <= fst ed < Z.of_nat (x_rows x a))%Z /\ (0 <= snd ed < Z.of_nat (x_rows x b))%Z).
  { intros e He. rewrite Forall_forall in TF. apply TF, nth_In, He. }
  pose proof (before_part_le (type_rows n x) a ltac:(rewrite rows_length; lia)) as B1. rewrite rows_part in B1 by lia.
  pose proof (before_part_le (type_rows n x) b ltac:(rewrite rows_length; lia)) as B2. rewrite rows_part in B2 by lia. fold o1 in B1. fold o2 in B2.
  pose proof Y as [LY YR]. fold n in YR.
  assert (E1 : mapM (fun e => zindex y (Z.of_nat o1 + fst e)) es = Ok (map (fun e => nth (Z.to_nat (Z.of_nat o1 + fst e)) y 0%Z) es)).
  { apply mapM_ok. intros e He. rewrite Forall_forall in TF. specialize (TF e He). apply zindex_ok. lia. }
  assert (E2 : mapM (fun e => zindex y (Z.of_nat o2 + snd e)) es = Ok (map (fun e => nth (Z.to_nat (Z.of_nat o2 + snd e)) y 0%Z) es)).
  { apply mapM_ok. intros e He. rewrite Forall_forall in TF. specialize (TF e He). apply zindex_ok. lia. }
  rewrite E1. cbn [bind]. rewrite E2. cbn [bind].
  assert (R1 : forall e, In e es -> (0 <= nth (Z.to_nat (Z.of_nat o1 + fst e)) y 0%Z - Z.of_nat (before (ty_states g) a) < Z.of_nat (part (ty_states g) a))%Z /\
     lab a (Z.to_nat (fst e)) = Z.to_nat (nth (Z.to_nat (Z.of_nat o1 + fst e)) y 0%Z - Z.of_nat (before (ty_states g) a))).
  { intros e He. rewrite Forall_forall in TF. specialize (TF e He). replace (Z.to_nat (Z.of_nat o1 + fst e)) with (o1 + Z.to_nat (fst e))%nat by lia.
    split; [|reflexivity]. specialize (YR a (Z.to_nat (fst e)) Ha ltac:(rewrite rows_part by lia; lia)). fold o1 in YR. lia. }
  assert (R2 : forall e, In e es -> (0 <= nth (Z.to_nat (Z.of_nat o2 + snd e)) y 0%Z - Z.of_nat (before (ty_states g) b) < Z.of_nat (part (ty_states g) b))%Z /\
     lab b (Z.to_nat (snd e)) = Z.to_nat (nth (Z.to_nat (Z.of_nat o2 + snd e)) y 0%Z - Z.of_nat (before (ty_states g) b))).
  { intros e He. rewrite Forall_forall in TF. specialize (TF e He). replace (Z.to_nat (Z.of_nat o2 + snd e)) with (o2 + Z.to_nat (snd e))%nat by lia.
    split; [|reflexivity]. specialize (YR b (Z.to_nat (snd e)) Hb ltac:(rewrite rows_part by lia; lia)). fold o2 in YR. lia. }
  unfold zminus. rewrite !map_map.
  rewrite ensure_true.
  2:{ apply andb_true_iff. split; apply forallb_forall; intros z Hz; apply in_map_iff in Hz; destruct Hz as [e [<- He]]; destruct (R1 e He) as [K _]; apply Z.leb_le; unfold ty_ns; unfold part in K; lia. }
  cbn [bind]. rewrite ensure_true.
  2:{ apply andb_true_iff. split; apply forallb_forall; intros z Hz; apply in_map_iff in Hz; destruct Hz as [e [<- He]]; destruct (R2 e He) as [K _]; apply Z.leb_le; unfold ty_ns; unfold part in K; lia. }
  cbn [bind]. rewrite zipw_map_same. unfold ty_ns. fold (part (ty_states g) a) (part (ty_states g) b).
  set (A := part (ty_states g) a) in *. set (B := part (ty_states g) b) in *.
  assert (LA : forall e, In e es -> (lab a (Z.to_nat (fst e)) < A)%nat /\ (lab b (Z.to_nat (snd e)) < B)%nat).
  { intros e He. destruct (R1 e He) as [K1 ->]. destruct (R2 e He) as [K2 ->]. lia. }
  assert (EI : mapM (wrap (A * B)) (map (fun e => (nth (Z.to_nat (Z.of_nat o2 + snd e)) y 0 - Z.of_nat (before (ty_states g) b) +
       Z.of_nat B * (nth (Z.to_nat (Z.of_nat o1 + fst e)) y 0 - Z.of_nat (before (ty_states g) a)))%Z) es) =
     Ok (map (fun e => lab b (Z.to_nat (snd e)) + B * lab a (Z.to_nat (fst e)))%nat es)).
  { clear E1 E2 YR TN Z. clear TF. revert R1 R2 LA. generalize es as l. induction l as [|e l IH]; intros R1 R2 LA; [reflexivity|].
    cbn [map mapM]. destruct (R1 e ltac:(left; reflexivity)) as [K1 K1']. destruct (R2 e ltac:(left; reflexivity)) as [K2 K2'].
    destruct (LA e ltac:(left; reflexivity)) as [L1 L2].
    rewrite wrap_ok by nia. cbn [bind]. rewrite IH by (intros; (apply R1 || apply R2 || apply LA); right; assumption). cbn [bind]. f_equal. f_equal.
    rewrite K1', K2'. nia. }
  rewrite EI. cbn [bind]. rewrite one_hot_ok.
  2:{ apply Forall_forall. intros c Hc. apply in_map_iff in Hc. destruct Hc as [e [<- He]]. destruct (LA e He). nia. }
  eexists. split; [reflexivity|]. cbn [mrows mcols mtab]. rewrite map_length. split; [reflexivity|]. split; [reflexivity|]. intros e s s' He Hs Hs'. set (ed := nth e es (0, 0)%Z).
  try match goal with |- mget (Mat ?a ?b (tab2 ?a ?b ?f)) _ _ = _ => change (Mat a b (tab2 a b f)) with (mtab a b f) end.
  assert (s * B + s' < A * B)%nat by nia. rewrite mget_mtab by assumption. rewrite (nth_map_in _ _ _ (0, 0)%Z) by exact He. fold ed.
  destruct (LA ed (nth_In _ _ He)). apply (combined_index A B); assumption.
Qed.

Lemma marginals_discrete g x y : well_typed g -> typed_instance g x ->
  let n := length (ty_states g) in
  let lab := typed_lab (ty_states g) (type_rows n x) y in
  typed_labelling (ty_states g) (type_rows n x) y ->
  exists ums pms, ty_marginals g x (TDiscrete y) = Ok (ums, pms) /\ shapes_ok g x ums pms /\
    (forall t i s, (t < n)%nat -> (i < x_rows x t)%nat -> (s < part (ty_states g) t)%nat ->
       mget (nth t ums (Mat 0 0 [])) i s = ind (s =? lab t i)%nat) /\
    (forall a b e s s', (a < n)%nat -> (b < n)%nat -> (e < length (x_edges n x a b))%nat -> (s < part (ty_states g) a)%nat -> (s' < part (ty_states g) b)%nat ->
       let ed := nth e (x_edges n x a b) (0, 0)%Z in
       mget (nth (a * n + b) pms (Mat 0 0 [])) e (s * part (ty_states g) b + s') = ind (s =? lab a (Z.to_nat (fst ed)))%nat * ind (s' =? lab b (Z.to_nat (snd ed)))%nat).
Proof.
  intros W T n lab Y. pose proof T as (LN & LE0 & LE & _ & TE). fold n in LN, LE0, LE, TE. pose proof W as [N0 _].
  unfold ty_marginals. rewrite (proj2 (proj1 (check_xy_spec g x y W LN)) Y). cbn [bind].
  unfold ty_types. fold n. rewrite node_rows by assumption. fold n.
  set (l := combine (combine (type_rows n x) (ty_states g)) (type_starts (ty_states g))).
  assert (LL : length l = n) by (unfold l; rewrite !combine_length, rows_length, starts_length; fold n; lia).
  assert (NL : forall t, (t < n)%nat -> nth t l (0, 0, 0)%nat = (part (type_rows n x) t, part (ty_states g) t, before (ty_states g) t)).
  { intros t Ht. unfold l. rewrite nth_combine_d by (rewrite ?combine_length, ?rows_length, ?starts_length; fold n; lia).
    rewrite nth_combine_d by (rewrite ?rows_length; fold n; lia). rewrite starts_nth by (fold n; lia). reflexivity. }
  assert (MR : map (fun q => fst (fst q)) l = type_rows n x).
  { apply (nth_ext_d _ _ O); [rewrite map_length, LL, rows_length; reflexivity|]. intros k Hk. rewrite map_length, LL in Hk.
    rewrite (nth_map_in _ _ _ (0, 0, 0)%nat) by lia. rewrite NL by exact Hk. reflexivity. }
  pose proof Y as [LY YR]. fold n in YR.
  destruct (one_hots_ok l y) as [ums [E [L N]]].
  { rewrite MR. lia. }
  { intros t i Ht Hi. rewrite LL in Ht. rewrite NL in * by exact Ht. cbn [fst snd] in Hi. rewrite MR. apply YR; assumption. }
  rewrite E. cbn [bind]. set (F := fun q : (nat * nat) * list (Z * Z) => _).
  assert (LED : length (ty_edges x) = (n * n)%nat) by (unfold ty_edges; rewrite map_length; exact LE0).
  assert (FE : forall a b, (a < n)%nat -> (b < n)%nat -> F (nth (a * n + b) (type_pairs n) (0, 0)%nat, nth (a * n + b) (ty_edges x) []) =
     edge_hots g (map (fun o => match o with None => O | Some m => mrows m end) (tx_nodes x)) y (a, b) (x_edges n x a b)).
  { intros a b Ha Hb. unfold F. cbn [fst snd]. rewrite pairs_nth by assumption. rewrite edges_nth. reflexivity. }
  destruct (mapM_combine_total F (type_pairs n) (ty_edges x) (0, 0)%nat []) as [pms EP]; [rewrite pairs_length; lia| |].
  { intros k Hk. rewrite pairs_length in Hk. destruct (split_index n k Hk) as [K1 [K2 K3]]. rewrite K3, FE by assumption.
    destruct (edge_hots_ok g x y (k / n)%nat (k mod n)%nat W T Y K1 K2) as [m [Em _]]. exists m. exact Em. }
  rewrite EP. cbn [bind]. pose proof (mapM_length _ _ _ EP) as LP. rewrite combine_length, pairs_length, LED, Nat.min_id in LP.
  assert (NP : forall a b, (a < n)%nat -> (b < n)%nat ->
     edge_hots g (map (fun o => match o with None => O | Some m => mrows m end) (tx_nodes x)) y (a, b) (x_edges n x a b) = Ok (nth (a * n + b) pms (Mat 0 0 []))).
  { intros a b Ha Hb. pose proof (pair_lt a b n Ha Hb). rewrite <- FE by assumption.
    rewrite <- nth_combine_d by (rewrite ?pairs_length; lia). apply mapM_nth; [exact EP|]. rewrite combine_length, pairs_length. lia. }
  exists ums, pms. split; [reflexivity|]. split; [|split].
  - unfold shapes_ok. cbv zeta. fold n. split; [lia|]. split; [exact LP|]. split.
    + intros t Ht. specialize (N t ltac:(fold n in Ht; lia)). rewrite NL in N by exact Ht. destruct N as [-> [-> _]]. split; [apply rows_part; exact Ht|reflexivity].
    + fold n. intros a b Ha Hb. destruct (edge_hots_ok g x y a b W T Y Ha Hb) as [m [Em [R1 [R2 _]]]]. fold n in Em, R1. rewrite NP in Em by assumption.
      assert (m = nth (a * n + b) pms (Mat 0 0 [])) by congruence. subst m. auto.
  - intros t i s Ht Hi Hs. specialize (N t ltac:(lia)). rewrite NL in N by exact Ht. destruct N as [_ [_ N]]. rewrite N by (rewrite ?rows_part by exact Ht; assumption).
    rewrite MR. reflexivity.
  - intros a b e s s' Ha Hb He Hs Hs'. destruct (edge_hots_ok g x y a b W T Y Ha Hb) as [m [Em [R1 [R2 R3]]]]. fold n in Em, R1, R3. rewrite NP in Em by assumption.
    assert (m = nth (a * n + b) pms (Mat 0 0 [])) by congruence. subst m. apply R3; assumption.
Qed.

Lemma sum_pick2 A B (P : nat -> nat -> Qc) a b (m : nat -> nat -> Qc) : (a < A)%nat -> (b < B)%nat ->
  (forall s s', (s < A)%nat -> (s' < B)%nat -> m s s' = ind (s =? a)%nat * ind (s' =? b)%nat) ->
  sumn A (fun s => sumn B (fun s' => m s s' * P s s')) = P a b.
Proof.
  intros Ha Hb H. rewrite (sumn_ext A _ (fun s => ind (s =? a)%nat * P s b)); [apply (sumn_pick A a (fun s => P s b) Ha)|].
  intros s Hs. rewrite (sumn_ext B _ (fun s' => ind (s' =? b)%nat * (ind (s =? a)%nat * P s s'))); [apply (sumn_pick B b (fun s' => ind (s =? a)%nat * P s s') Hb)|].
  intros s' Hs'. rewrite H by assumption. ring.
Qed.

Lemma ty_joint_discrete g x y : well_typed g -> typed_instance g x ->
  typed_labelling (ty_states g) (type_rows (length (ty_states g)) x) y ->
  exists psi, ty_joint_feature g x (TDiscrete y) = Ok psi /\ length psi = ty_size g /\
    forall w, length w = ty_size g -> dot w psi = ty_score g x w y.
Proof.
  intros W T Y. set (n := length (ty_states g)) in *. destruct (marginals_discrete g x y W T Y) as [ums [pms [E [SH [MU MP]]]]].
  destruct (joint_core g x (TDiscrete y) ums pms W T E SH) as [psi [P1 [P2 P3]]]. fold n in MU, MP, P3.
  exists psi. split; [exact P1|]. split; [exact P2|]. intros w Hw. rewrite P3 by exact Hw. unfold ty_score, typed_score. fold n. f_equal.
  - apply sumn_ext. intros t Ht. apply sumn_ext. intros i Hi.
    rewrite (sumn_ext _ _ (fun s => ind (s =? typed_lab (ty_states g) (type_rows n x) y t i)%nat * type_score g w t (x_feat x t i) s)).
    + apply (sumn_pick _ _ (fun s => type_score g w t (x_feat x t i) s)). apply typed_lab_lt; [exact Y|exact Ht|rewrite rows_part by exact Ht; exact Hi].
    + intros s Hs. rewrite MU by assumption. reflexivity.
  - apply sumn_ext. intros a Ha. apply sumn_ext. intros b Hb. apply sumn_ext. intros e He.
    destruct T as (_ & _ & _ & _ & TE). fold n in TE. destruct (TE a b Ha Hb) as [TF _]. rewrite Forall_forall in TF.
    destruct (TF _ (nth_In _ (0, 0)%Z He)) as [F1 F2].
    apply (sum_pick2 _ _ (fun s s' => pair_types_score g w a b (x_edge_feat n x a b e) s s') _ _ (fun s s' => mget (nth (a * n + b) pms (Mat 0 0 [])) e (s * part (ty_states g) b + s'))).
    + apply typed_lab_lt; [exact Y|exact Ha|rewrite rows_part by exact Ha; lia].
    + apply typed_lab_lt; [exact Y|exact Hb|rewrite rows_part by exact Hb; lia].
    + intros s s' Hs Hs'. apply MP; assumption.
Qed.

(** ** relaxed labels *)
Lemma joint_lists g x ums pms : well_typed g -> typed_instance g x -> shapes_ok g x ums pms ->
  let n := length (ty_states g) in
  exists psi, ty_joint_feature g x (TRelaxed (MList ums) (MList pms)) = Ok psi /\ length psi = ty_size g /\
    forall w, length w = ty_size g -> dot w psi =
      sumn n (fun t => sumn (x_rows x t) (fun i => sumn (part (ty_states g) t) (fun s =>
        mget (nth t ums (Mat 0 0 [])) i s * type_score g w t (x_feat x t i) s))) +
      sumn n (fun a => sumn n (fun b => sumn (length (x_edges n x a b)) (fun e =>
        sumn (part (ty_states g) a) (fun s => sumn (part (ty_states g) b) (fun s' =>
          mget (nth (a * n + b) pms (Mat 0 0 [])) e (s * part (ty_states g) b + s') *
          pair_types_score g w a b (x_edge_feat n x a b e) s s'))))).
Proof. intros W T SH n. apply joint_core; auto. Qed.

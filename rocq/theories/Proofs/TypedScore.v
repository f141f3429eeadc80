From Coq Require Import String ZArith.
From Verif Require Import Model.Typed Spec.TypedSpec Proofs.Arrays Proofs.LossProofs Proofs.EdgeFeatureProofs
  Proofs.TypedProofs Proofs.TypedLabels.
#[local] Open Scope nat_scope.

(** ** pairs of types *)
Lemma list_prod_concat {A B} (l : list A) (r : list B) : list_prod l r = concat (map (fun a => map (pair a) r) l).
Proof. induction l; simpl; [reflexivity|]. rewrite IHl. reflexivity. Qed.
Lemma pairs_const n : Forall (fun r => length r = n) (map (fun a => map (pair a) (seq 0 n)) (seq 0 n)).
Proof. apply Forall_forall. intros r Hr. apply in_map_iff in Hr. destruct Hr as [a [<- _]]. rewrite map_length, seq_length. reflexivity. Qed.
Lemma pairs_length n : length (type_pairs n) = n * n.
Proof. unfold type_pairs. rewrite list_prod_concat, (concat_length_const _ _ (pairs_const n)), map_length, seq_length. reflexivity. Qed.
Lemma pairs_nth n a b : a < n -> b < n -> nth (a * n + b) (type_pairs n) (0, 0) = (a, b).
Proof.
  intros Ha Hb. unfold type_pairs. rewrite list_prod_concat.
  rewrite (concat_nth_const _ n) by (try apply pairs_const; rewrite ?map_length, ?seq_length; assumption).
  rewrite (nth_map_seq _ _ _ []) by exact Ha. rewrite (nth_map_seq _ _ _ (0, 0)) by exact Hb. reflexivity.
Qed.
Lemma firstn_concat_const {A} (l : list (list A)) n a b : Forall (fun r => length r = n) l -> a < length l -> b <= n ->
  firstn (a * n + b) (concat l) = concat (firstn a l) ++ firstn b (nth a l []).
Proof.
  intro F. revert a. induction F as [|r l Hr F IH]; intros a Ha Hb; [simpl in Ha; lia|]. destruct a as [|a]; simpl.
  - rewrite firstn_app. replace (b - length r) with 0 by lia. cbn [firstn]. apply app_nil_r.
  - rewrite firstn_app, firstn_all2 by lia. rewrite <- app_assoc. f_equal. rewrite <- IH by (simpl in Ha; lia). f_equal. lia.
Qed.
Lemma list_sum_concat l : list_sum (concat l) = list_sum (map list_sum l).
Proof. induction l; simpl; [reflexivity|]. rewrite list_sum_app. simpl. lia. Qed.
Lemma pairs_before (f : nat * nat -> nat) n a b : a < n -> b <= n ->
  before (map f (type_pairs n)) (a * n + b) =
  list_sum (map (fun a' => list_sum (map (fun b' => f (a', b')) (seq 0 n))) (seq 0 a)) + list_sum (map (fun b' => f (a, b')) (seq 0 b)).
Proof.
  intros Ha Hb. unfold before, type_pairs. rewrite list_prod_concat. rewrite concat_map, map_map.
  assert (C : Forall (fun r => length r = n) (map (fun x => map f (map (pair x) (seq 0 n))) (seq 0 n))).
  { apply Forall_forall. intros r Hr. apply in_map_iff in Hr. destruct Hr as [x [<- _]]. rewrite !map_length, seq_length. reflexivity. }
  rewrite (firstn_concat_const _ n a b C) by (rewrite ?map_length, ?seq_length; assumption).
  rewrite list_sum_app, list_sum_concat. f_equal.
  - rewrite firstn_map, map_map. f_equal. replace (firstn a (seq 0 n)) with (seq 0 a).
    + apply map_ext. intros. rewrite map_map. reflexivity.
    + replace n with (a + (n - a)) by lia. rewrite seq_app, firstn_app, seq_length, Nat.sub_diag. cbn [firstn]. rewrite app_nil_r.
      symmetry. apply firstn_all2. rewrite seq_length. lia.
  - rewrite (nth_map_seq _ _ _ []) by exact Ha. rewrite map_map, firstn_map. f_equal. f_equal.
    replace n with (b + (n - b)) by lia. rewrite seq_app, firstn_app, seq_length, Nat.sub_diag. cbn [firstn]. rewrite app_nil_r.
    apply firstn_all2. rewrite seq_length. lia.
Qed.
Lemma pairs_sum (f : nat * nat -> nat) n :
  list_sum (map f (type_pairs n)) = list_sum (map (fun a => list_sum (map (fun b => f (a, b)) (seq 0 n))) (seq 0 n)).
Proof.
  unfold type_pairs. rewrite list_prod_concat, concat_map, list_sum_concat, !map_map. f_equal. apply map_ext. intro. rewrite map_map. reflexivity.
Qed.
Lemma combine_before (st fe : list nat) t : length fe = length st -> t <= length st ->
  before (map (fun p => fst p * snd p) (combine st fe)) t = list_sum (map (fun a => part st a * part fe a) (seq 0 t)).
Proof.
  intros L H. unfold before. rewrite firstn_map. f_equal. apply (nth_ext_d _ _ 0).
  - rewrite !map_length, firstn_length, combine_length, seq_length. lia.
  - intros k Hk. rewrite map_length, firstn_length, combine_length in Hk.
    rewrite (nth_map_in _ _ _ (0, 0)) by (rewrite firstn_length, combine_length; lia).
    rewrite nth_firstn by lia. rewrite nth_combine_d by lia. rewrite (nth_map_seq _ _ _ 0) by lia. reflexivity.
Qed.

Lemma size_unaries_start g : well_typed g -> ty_size_unaries g = node_start g (length (ty_states g)).
Proof.
  intros [_ [L _]]. unfold ty_size_unaries, node_start. rewrite <- combine_before by lia.
  symmetry. apply before_all. rewrite map_length, combine_length. lia.
Qed.
Lemma pair_size_model g a b : ty_nef g (a, b) * ty_ns g a * ty_ns g b = pair_size g a b.
Proof. unfold pair_size, ty_nef, ty_ns, part. cbn [fst snd]. lia. Qed.
Lemma size_weights g : well_typed g -> ty_size g = weights_size g.
Proof.
  intro W. unfold ty_size, weights_size. rewrite size_unaries_start by exact W. f_equal. unfold ty_size_pairwise, ty_types.
  rewrite pairs_sum. f_equal. apply map_ext. intro a. unfold pair_row. f_equal. apply map_ext. intro b. apply pair_size_model.
Qed.
Lemma edge_start_before g a b : well_typed g -> a < length (ty_states g) -> b <= length (ty_states g) ->
  edge_start g a b = ty_size_unaries g +
    before (map (fun p => ty_nef g p * ty_ns g (fst p) * ty_ns g (snd p)) (type_pairs (length (ty_states g)))) (a * length (ty_states g) + b).
Proof.
  intros W Ha Hb. rewrite pairs_before by assumption. rewrite size_unaries_start by exact W. unfold edge_start. rewrite <- Nat.add_assoc. f_equal.
  f_equal.
  - f_equal. apply map_ext. intro a'. unfold pair_row. f_equal. apply map_ext. intro b'. symmetry. apply pair_size_model.
  - unfold pair_row. f_equal. apply map_ext. intro b'. symmetry. apply pair_size_model.
Qed.

(** ** block products *)
Local Open Scope Qc_scope.
Lemma dot_blocks (bs : list (list Qc)) : forall w, length w = list_sum (map (@length Qc) bs) ->
  dot w (concat bs) = sumn (length bs) (fun t =>
    dot (firstn (length (nth t bs [])) (skipn (before (map (@length Qc) bs) t) w)) (nth t bs [])).
Proof.
  induction bs as [|b bs IH]; intros w H.
  - cbn [concat length]. rewrite sumn_O. unfold dot. destruct w; reflexivity.
  - cbn [map list_sum fold_right] in H. change (fold_right Nat.add 0%nat) with list_sum in H. cbn [concat].
    rewrite <- (firstn_skipn (length b) w) at 1. rewrite dot_app by (rewrite firstn_length; lia).
    cbn [length]. rewrite sumn_S_l. cbn [nth map]. rewrite before_0. cbn [skipn]. f_equal.
    rewrite IH by (rewrite skipn_length; lia). apply sumn_ext. intros t Ht. rewrite before_cons.
    f_equal. f_equal. clear. revert w. induction (length b) as [|k IHk]; intros w; [reflexivity|]. destruct w; [rewrite !skipn_nil; reflexivity|].
    simpl. apply IHk.
Qed.

Lemma tmul_ok A B : mrows A = mrows B ->
  exists M, mat_mul (mat_T A) B = Ok M /\ length (ravel M) = (mcols A * mcols B)%nat /\
    forall v, length v = (mcols A * mcols B)%nat ->
      dot v (ravel M) = sumn (mrows A) (fun i => sumn (mcols A) (fun a => sumn (mcols B) (fun b =>
        mget A i a * (get1 v (a * mcols B + b) * mget B i b)))).
Proof.
  intro H. rewrite mat_mul_ok by (simpl; exact H). eexists. split; [reflexivity|].
  change (mrows (mat_T A)) with (mcols A). change (mcols (mat_T A)) with (mrows A).
  split; [apply ravel_mtab_length|]. intros v Hv.
  unfold ravel, mtab, mdat. rewrite dot_concat_tab2 by exact Hv.
  rewrite (sumn_swap (mrows A) (mcols A)). apply sumn_ext. intros a Ha.
  rewrite (sumn_swap (mrows A) (mcols B)). apply sumn_ext. intros b Hb. rewrite <- sumn_mult_l. apply sumn_ext. intros i Hi.
  rewrite mget_T by assumption. ring.
Qed.

(** ** potentials *)
Lemma unary_loop_ok (l : list (mat * nat * nat)) : forall w,
  (list_sum (map (fun q => snd (fst q) * snd q) l) <= length w)%nat ->
  Forall (fun q => mcols (fst (fst q)) = snd q) l ->
  exists us, unary_loop l w = Ok (us, list_sum (map (fun q => snd (fst q) * snd q)%nat l)) /\ length us = length l /\
    forall t, (t < length l)%nat ->
      let '(X, k, F) := nth t l (Mat 0 0 [], 0, 0)%nat in
      let U := nth t us (Mat 0 0 []) in
      mat_ok U /\ mrows U = mrows X /\ mcols U = k /\
      forall i s, (i < mrows X)%nat -> (s < k)%nat ->
        mget U i s = sumn F (fun f => mget X i f * get1 w (before (map (fun q => snd (fst q) * snd q)%nat l) t + (s * F + f))).
Proof.
  induction l as [|[[X k] F] l IH]; intros w Hw HF.
  - exists []. split; [reflexivity|]. split; [reflexivity|]. intros t Ht. simpl in Ht. lia.
  - cbn [map list_sum fold_right fst snd] in Hw. change (fold_right Nat.add 0%nat) with list_sum in Hw.
    inversion HF as [|? ? HX HF']; subst. cbn [fst snd] in HX.
    destruct (IH (skipn (k * F) w)) as [us [E [L N]]]; [rewrite skipn_length; lia|exact HF'|].
    cbn [unary_loop]. rewrite reshape_ok by (rewrite firstn_length; lia). cbn [bind].
    rewrite mat_mul_ok by (simpl; exact HX). cbn [bind]. rewrite E. cbn [bind fst snd].
    eexists. split; [reflexivity|]. split; [simpl; congruence|]. intros t Ht. destruct t as [|t].
    + cbn [nth]. split; [apply mtab_ok|]. cbn [mrows mcols mtab mat_T]. split; [reflexivity|]. split; [reflexivity|].
      intros i s Hi Hs. try match goal with |- mget (Mat ?a ?b (tab2 ?a ?b ?f)) _ _ = _ => change (Mat a b (tab2 a b f)) with (mtab a b f) end.
      rewrite mget_mtab by assumption. rewrite HX. apply sumn_ext. intros f Hf. f_equal.
      rewrite mget_T by (simpl; assumption). rewrite mget_mtab by assumption. cbn [map fst snd]. rewrite before_0.
      rewrite get1_firstn by nia. reflexivity.
    + cbn [nth map fst snd]. specialize (N t ltac:(simpl in Ht; lia)). destruct (nth t l (Mat 0 0 [], 0, 0)%nat) as [[X' k'] F'].
      destruct N as [N1 [N2 [N3 N4]]]. split; [exact N1|]. split; [exact N2|]. split; [exact N3|]. intros i s Hi Hs.
      rewrite N4 by assumption. apply sumn_ext. intros f Hf. f_equal. rewrite get1_skipn, before_cons. f_equal. lia.
Qed.

Lemma ty_unary_ok g x w : well_typed g -> typed_instance g x -> length w = ty_size g ->
  exists Us, ty_unary g x w = Ok Us /\ length Us = length (ty_states g) /\
    forall t, (t < length (ty_states g))%nat ->
      let U := nth t Us (Mat 0 0 []) in
      mat_ok U /\ mrows U = x_rows x t /\ mcols U = part (ty_states g) t /\
      forall i s, (i < x_rows x t)%nat -> (s < part (ty_states g) t)%nat -> mget U i s = type_score g w t (x_feat x t i) s.
Proof.
  intros W T Hw. pose proof W as [N0 [LF _]]. pose proof T as (LN & _ & _ & TC & _). set (n := length (ty_states g)) in *.
  unfold ty_unary, check_size_w. rewrite Hw, Nat.eqb_refl. cbn [ensure bind].
  set (l := combine (combine (ty_node_features g x) (ty_states g)) (ty_features g)).
  assert (LNF : length (ty_node_features g x) = n) by (apply node_features_length; assumption).
  assert (LL : length l = n) by (unfold l; rewrite !combine_length; fold n; lia).
  assert (NL : forall t, (t < n)%nat -> nth t l (Mat 0 0 [], 0, 0)%nat = (nth t (ty_node_features g x) (Mat 0 0 []), part (ty_states g) t, part (ty_features g) t)).
  { intros t Ht. unfold l. rewrite nth_combine_d by (rewrite ?combine_length; fold n; lia). rewrite nth_combine_d by (fold n; lia). reflexivity. }
  assert (MS : map (fun q => snd (fst q) * snd q)%nat l = map (fun p => fst p * snd p)%nat (combine (ty_states g) (ty_features g))).
  { apply (nth_ext_d _ _ O); [rewrite !map_length, LL, combine_length; fold n; lia|]. intros k Hk. rewrite map_length, LL in Hk.
    rewrite (nth_map_in _ _ _ (Mat 0 0 [], 0, 0)%nat) by lia. rewrite NL by exact Hk.
    rewrite (nth_map_in _ _ _ (0, 0)%nat) by (rewrite combine_length; fold n; lia). rewrite nth_combine_d by (fold n; lia). reflexivity. }
  destruct (unary_loop_ok l w) as [us [E [L N]]].
  - rewrite MS. change (list_sum _) with (ty_size_unaries g). unfold ty_size in Hw. lia.
  - apply Forall_forall. intros q Hq. apply (In_nth _ _ (Mat 0 0 [], 0, 0)%nat) in Hq. destruct Hq as [k [Hk <-]]. rewrite LL in Hk.
    rewrite NL by exact Hk. cbn [fst snd]. destruct (node_features_nth g x k W LN Hk) as [_ [_ C]]. rewrite C.
    destruct (nth k (tx_nodes x) None) as [m|] eqn:Em; [apply (TC k m Hk Em)|reflexivity].
  - rewrite E. cbn [bind fst snd]. rewrite MS. change (list_sum (map _ _)) with (ty_size_unaries g). rewrite Nat.eqb_refl. cbn [ensure bind].
    exists us. split; [reflexivity|]. split; [congruence|]. intros t Ht. specialize (N t ltac:(lia)). rewrite NL in N by exact Ht.
    destruct N as [N1 [N2 [N3 N4]]]. destruct (node_features_nth g x t W LN Ht) as [R [G _]]. rewrite R in N2, N4.
    split; [exact N1|]. split; [exact N2|]. split; [exact N3|]. intros i s Hi Hs. rewrite N4 by assumption.
    unfold type_score. apply sumn_ext. intros f Hf. rewrite G. f_equal. rewrite MS. unfold node_start. rewrite combine_before by (fold n; lia). reflexivity.
Qed.

Lemma pairwise_loop_ok g (l : list ((nat * nat) * mat)) : forall w,
  (list_sum (map (fun q => mcols (snd q) * ty_ns g (fst (fst q)) * ty_ns g (snd (fst q))) l) <= length w)%nat ->
  exists Ps, pairwise_loop g l w = Ok Ps /\ length Ps = length l /\
    forall t, (t < length l)%nat ->
      let '(p, ef) := nth t l ((0, 0)%nat, Mat 0 0 []) in
      let P := nth t Ps (Pw3 0 0 0 []) in
      let A := ty_ns g (fst p) in let B := ty_ns g (snd p) in
      (if (mcols ef * A * B =? 0)%nat then P = Pw3 0 0 0 [] else exists d, P = Pw3 (mrows ef) A B d /\ length d = mrows ef) /\
      forall e s s', (e < mrows ef)%nat -> (s < A)%nat -> (s' < B)%nat ->
        pair_entry P e s s' = sumn (mcols ef) (fun f => mget ef e f *
          get1 w (before (map (fun q => mcols (snd q) * ty_ns g (fst (fst q)) * ty_ns g (snd (fst q)))%nat l) t + (f * (A * B) + (s * B + s')))).
Proof.
  induction l as [|[p ef] l IH]; intros w Hw.
  - exists []. split; [reflexivity|]. split; [reflexivity|]. intros t Ht. simpl in Ht. lia.
  - cbn [map list_sum fold_right fst snd] in Hw. change (fold_right Nat.add 0%nat) with list_sum in Hw.
    cbn [pairwise_loop]. cbv zeta. set (A := ty_ns g (fst p)) in *. set (B := ty_ns g (snd p)) in *. set (D := mcols ef) in *.
    destruct (IH (skipn (D * A * B) w)) as [Ps [E [L N]]]; [rewrite skipn_length; lia|].
    assert (POT : exists P, (if (D * A * B =? 0)%nat then Ok (Pw3 0 0 0 [])
                   else
                     let! m := reshape (firstn (D * A * B) w) D (length (firstn (D * A * B) w) / D) in
                     let! d := mat_mul ef m in
                     let! _ := ensure (mrows d * mcols d =? mrows d * (A * B))%nat ValueError in
                     Ok (Pw3 (mrows d) A B (map (fun e => tab2 A B (fun s t => mget d e (s * B + t))) (seq 0 (mrows d))))) = Ok P /\
       (if (D * A * B =? 0)%nat then P = Pw3 0 0 0 [] else exists d, P = Pw3 (mrows ef) A B d /\ length d = mrows ef) /\
       forall e s s', (e < mrows ef)%nat -> (s < A)%nat -> (s' < B)%nat ->
         pair_entry P e s s' = sumn D (fun f => mget ef e f * get1 w (f * (A * B) + (s * B + s')))).
    { destruct (Nat.eqb_spec (D * A * B) 0) as [Z|Z].
      - eexists. split; [reflexivity|]. split; [reflexivity|]. intros e s s' He Hs Hs'.
        assert (H : D = 0%nat) by (apply Nat.eq_mul_0 in Z; destruct Z as [Z|Z]; [apply Nat.eq_mul_0 in Z; destruct Z|]; lia). rewrite H, sumn_O. cbn [pair_entry]. unfold get2. destruct e, s, s'; reflexivity.
      - assert (LV : length (firstn (D * A * B) w) = (D * (A * B))%nat) by (rewrite firstn_length; lia).
        rewrite LV. rewrite (Nat.mul_comm D (A * B)), Nat.div_mul by nia. rewrite reshape_ok by (rewrite LV; reflexivity). cbn [bind].
        rewrite mat_mul_ok by reflexivity. cbn [bind mrows mcols mtab]. rewrite Nat.eqb_refl. cbn [ensure bind].
        eexists. split; [reflexivity|]. split; [eexists; split; [reflexivity|rewrite map_length, seq_length; reflexivity]|].
        intros e s s' He Hs Hs'. cbn [pair_entry]. rewrite (nth_map_seq _ _ _ []) by exact He. rewrite get2_tab2 by assumption.
        try match goal with |- mget (Mat ?a ?b (tab2 ?a ?b ?f)) _ _ = _ => change (Mat a b (tab2 a b f)) with (mtab a b f) end.
        assert (s * B + s' < A * B)%nat by nia.
        rewrite mget_mtab by assumption. fold D. apply sumn_ext. intros f Hf. f_equal.
        try match goal with |- mget (Mat ?a ?b (tab2 ?a ?b ?f)) _ _ = _ => change (Mat a b (tab2 a b f)) with (mtab a b f) end.
        rewrite mget_mtab by assumption. rewrite get1_firstn by nia. reflexivity. }
    destruct POT as [P [E0 [SH V]]]. rewrite E0. cbn [bind]. rewrite E. cbn [bind].
    eexists. split; [reflexivity|]. split; [simpl; congruence|]. intros t Ht. destruct t as [|t].
    + cbn [nth map fst snd]. rewrite before_0. split; [exact SH|]. exact V.
    + cbn [nth map fst snd]. specialize (N t ltac:(simpl in Ht; lia)). destruct (nth t l ((0, 0)%nat, Mat 0 0 [])) as [p' ef'].
      destruct N as [N1 N2]. split; [exact N1|]. intros e s s' He Hs Hs'. rewrite N2 by assumption. apply sumn_ext. intros f Hf. f_equal.
      rewrite get1_skipn, before_cons. fold A B D. f_equal. lia.
Qed.

Lemma nonempty_pairs n a b : (a < n)%nat -> (b < n)%nat -> (a * n + b < length (type_pairs n))%nat.
Proof. intros. rewrite pairs_length. apply pair_lt; assumption. Qed.

Lemma ef_cols g x a b : well_typed g -> typed_instance g x -> (a < length (ty_states g))%nat -> (b < length (ty_states g))%nat ->
  mcols (nth (a * length (ty_states g) + b) (ty_edge_feats g x) (Mat 0 0 [])) = part (nth a (ty_edge_features g) []) b.
Proof.
  intros W (_ & _ & LE & _ & T) Ha Hb. destruct (edge_feats_nth g x a b W LE Ha Hb) as [_ [_ C]]. cbv zeta in C. rewrite C.
  destruct (T a b Ha Hb) as [_ [_ D]]. destruct (nth (a * length (ty_states g) + b) (tx_edge_features x) None) as [m|]; [apply D|]; reflexivity.
Qed.
Lemma node_cols g x t : well_typed g -> typed_instance g x -> (t < length (ty_states g))%nat ->
  mcols (nth t (ty_node_features g x) (Mat 0 0 [])) = part (ty_features g) t.
Proof.
  intros W (LN & _ & _ & T & _) Ht. destruct (node_features_nth g x t W LN Ht) as [_ [_ C]]. cbv zeta in C. rewrite C.
  destruct (nth t (tx_nodes x) None) as [m|] eqn:E; [apply (T t m Ht E)|reflexivity].
Qed.

Lemma ty_pairwise_ok g x w : well_typed g -> typed_instance g x -> length w = ty_size g ->
  let n := length (ty_states g) in
  exists Ps, ty_pairwise g x w = Ok Ps /\ length Ps = (n * n)%nat /\
    forall a b, (a < n)%nat -> (b < n)%nat ->
      let P := nth (a * n + b) Ps (Pw3 0 0 0 []) in
      (if (pair_size g a b =? 0)%nat then P = Pw3 0 0 0 []
       else exists d, P = Pw3 (length (x_edges n x a b)) (part (ty_states g) a) (part (ty_states g) b) d /\ length d = length (x_edges n x a b)) /\
      forall e s s', (e < length (x_edges n x a b))%nat -> (s < part (ty_states g) a)%nat -> (s' < part (ty_states g) b)%nat ->
        pair_entry P e s s' = pair_types_score g w a b (x_edge_feat n x a b e) s s'.
Proof.
  intros W T Hw n. pose proof T as (LN & _ & LE & _ & TE). fold n in LE, TE.
  unfold ty_pairwise, check_size_w. rewrite Hw, Nat.eqb_refl. cbn [ensure bind]. unfold ty_types. fold n.
  set (l := combine (type_pairs n) (ty_edge_feats g x)).
  assert (LEF : length (ty_edge_feats g x) = (n * n)%nat) by (apply edge_feats_length; assumption).
  assert (LL : length l = (n * n)%nat) by (unfold l; rewrite combine_length, pairs_length; lia).
  assert (NL : forall a b, (a < n)%nat -> (b < n)%nat -> nth (a * n + b) l ((0, 0)%nat, Mat 0 0 []) = ((a, b), nth (a * n + b) (ty_edge_feats g x) (Mat 0 0 []))).
  { intros a b Ha Hb. pose proof (pair_lt a b n Ha Hb). unfold l. rewrite nth_combine_d by (rewrite ?pairs_length; lia). rewrite pairs_nth by assumption. reflexivity. }
  assert (EC : forall a b, (a < n)%nat -> (b < n)%nat ->
     mcols (nth (a * n + b) (ty_edge_feats g x) (Mat 0 0 [])) = part (nth a (ty_edge_features g) []) b)
    by (intros a b Ha Hb; apply (ef_cols g x a b W T Ha Hb)).
  assert (MS : map (fun q => mcols (snd q) * ty_ns g (fst (fst q)) * ty_ns g (snd (fst q)))%nat l =
               map (fun p => ty_nef g p * ty_ns g (fst p) * ty_ns g (snd p))%nat (type_pairs n)).
  { apply (nth_ext_d _ _ O); [rewrite !map_length, LL, pairs_length; lia|]. intros k Hk. rewrite map_length, LL in Hk.
    assert (N0 : (0 < n)%nat) by nia.
    assert (K1 : (k / n < n)%nat) by (apply Nat.div_lt_upper_bound; lia). assert (K2 : (k mod n < n)%nat) by (apply Nat.mod_upper_bound; lia).
    rewrite (nth_map_in _ _ _ ((0, 0)%nat, Mat 0 0 [])) by lia. rewrite (nth_map_in _ _ _ (0, 0)%nat) by (rewrite pairs_length; lia).
    rewrite (Nat.div_mod k n) by lia. rewrite (Nat.mul_comm n). rewrite NL by assumption. rewrite pairs_nth by assumption. cbn [fst snd].
    rewrite EC by assumption. reflexivity. }
  destruct (pairwise_loop_ok g l (skipn (ty_size_unaries g) w)) as [Ps [E [L N]]].
  { rewrite MS, skipn_length, Hw. unfold ty_size, ty_size_pairwise, ty_types. fold n. lia. }
  exists Ps. split; [exact E|]. split; [congruence|]. intros a b Ha Hb. pose proof (pair_lt a b n Ha Hb) as PL.
  specialize (N (a * n + b)%nat ltac:(lia)). rewrite NL in N by assumption. cbn [fst snd] in N. rewrite EC in N by assumption.
  destruct (edge_feats_nth g x a b W LE Ha Hb) as [R [G _]]. fold n in R, G. rewrite R in N.
  destruct (TE a b Ha Hb) as [_ [TR _]]. rewrite TR in N.
  unfold ty_ns in N. fold (part (ty_states g) a) in N. fold (part (ty_states g) b) in N.
  rewrite <- (Nat.mul_assoc (part (nth a (ty_edge_features g) []) b)) in N.
  fold (pair_size g a b) in N. destruct N as [N1 N2]. split; [exact N1|]. intros e s s' He Hs Hs'. rewrite N2 by assumption.
  unfold pair_types_score. apply sumn_ext. intros f Hf. rewrite G. f_equal. unfold ty_ns in MS. rewrite get1_skipn.
  rewrite edge_start_before by (auto; unfold n in *; lia). fold n. f_equal.
  match goal with |- (_ + (before ?l1 _ + _))%nat = (_ + before ?l2 _ + _)%nat => replace l1 with l2 by (symmetry; exact MS) end. lia.
Qed.

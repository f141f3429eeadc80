From Coq Require Import String ZArith.
From Verif Require Import Model.Typed Spec.TypedSpec Proofs.Arrays Proofs.LossProofs Proofs.EdgeFeatureProofs
  Proofs.NSlackProofs5 Proofs.TypedProofs Proofs.TypedLabels Proofs.TypedScore Proofs.TypedJoint.

(** ** arrays as marginals *)
Lemma mat_block_ok m i n j k : (i + n <= mrows m)%nat -> (j + k <= mcols m)%nat ->
  mrows (mat_block m i n j k) = n /\ mcols (mat_block m i n j k) = k /\
  forall a b, (a < n)%nat -> (b < k)%nat -> mget (mat_block m i n j k) a b = mget m (i + a) (j + b).
Proof.
  intros H1 H2. unfold mat_block. rewrite !Nat.min_l by lia. cbn [mrows mcols mtab]. split; [reflexivity|]. split; [reflexivity|].
  intros a b Ha Hb. try match goal with |- mget (Mat ?a ?b (tab2 ?a ?b ?f)) _ _ = _ => change (Mat a b (tab2 a b f)) with (mtab a b f) end.
  rewrite mget_mtab by assumption. reflexivity.
Qed.
Lemma split_unary_nth m l : forall i j t, (t < length l)%nat ->
  nth t (split_unary m l i j) (Mat 0 0 []) =
  mat_block m (i + before (map fst l) t) (fst (nth t l (0, 0)%nat)) (j + before (map snd l) t) (snd (nth t l (0, 0)%nat)).
Proof.
  induction l as [|[n k] l IH]; intros i j t Ht; [simpl in Ht; lia|]. destruct t as [|t]; cbn [split_unary nth map fst snd].
  - rewrite !before_0, !Nat.add_0_r. reflexivity.
  - rewrite IH by (simpl in Ht; lia). rewrite !before_cons, !Nat.add_assoc. reflexivity.
Qed.
Lemma split_unary_length m l : forall i j, length (split_unary m l i j) = length l.
Proof. induction l as [|[n k] l IH]; intros i j; simpl; auto. Qed.
Lemma split_pairwise_nth g m l : forall i t, (t < length l)%nat ->
  nth t (split_pairwise g m l i) (Mat 0 0 []) =
  let p := snd (nth t l (O, (0, 0)%nat)) in
  mat_block m (i + before (map fst l) t) (fst (nth t l (O, (0, 0)%nat))) (pair_start g p) (ty_ns g (fst p) * ty_ns g (snd p)).
Proof.
  induction l as [|[n p] l IH]; intros i t Ht; [simpl in Ht; lia|]. destruct t as [|t]; cbn [split_pairwise nth map fst snd].
  - rewrite !before_0, !Nat.add_0_r. reflexivity.
  - rewrite IH by (simpl in Ht; lia). rewrite !before_cons, !Nat.add_assoc. reflexivity.
Qed.
Lemma split_pairwise_length g m l : forall i, length (split_pairwise g m l i) = length l.
Proof. induction l as [|[n k] l IH]; intros i; simpl; auto. Qed.

Lemma map_fst_combine_eq {A B} (l : list A) (r : list B) : length l = length r -> map fst (combine l r) = l.
Proof. revert r. induction l; intros [|b r] H; simpl in *; try lia; auto. f_equal. auto. Qed.
Lemma map_snd_combine_eq {A B} (l : list A) (r : list B) : length l = length r -> map snd (combine l r) = r.
Proof. revert r. induction l; intros [|b r] H; simpl in *; try lia; auto. f_equal. auto. Qed.

Lemma arrays_ok g x um pm : well_typed g -> typed_instance g x ->
  let n := length (ty_states g) in
  let rows := type_rows n x in
  mrows um = list_sum rows -> mcols um = list_sum (ty_states g) ->
  mrows pm = TypedSpec.pairs_before (fun a b => length (x_edges n x a b)) n n 0 ->
  mcols pm = TypedSpec.pairs_before (fun a b => part (ty_states g) a * part (ty_states g) b)%nat n n 0 ->
  exists ums pms, ty_marginals g x (TRelaxed (MArray um) (MArray pm)) = Ok (ums, pms) /\ shapes_ok g x ums pms /\
    (forall t i s, (t < n)%nat -> (i < x_rows x t)%nat -> (s < part (ty_states g) t)%nat ->
       mget (nth t ums (Mat 0 0 [])) i s = mget um (before rows t + i) (before (ty_states g) t + s)) /\
    (forall a b e c, (a < n)%nat -> (b < n)%nat -> (e < length (x_edges n x a b))%nat -> (c < part (ty_states g) a * part (ty_states g) b)%nat ->
       mget (nth (a * n + b) pms (Mat 0 0 [])) e c =
       mget pm (TypedSpec.pairs_before (fun a b => length (x_edges n x a b)) n a b + e)
               (TypedSpec.pairs_before (fun a b => part (ty_states g) a * part (ty_states g) b)%nat n a b + c)).
Proof.
  intros W T n rows HU1 HU2 HP1 HP2. pose proof T as (LN & LE0 & LE & _ & TE). fold n in LN, LE0, LE, TE.
  unfold ty_marginals. rewrite node_rows by assumption. fold n. fold rows. unfold ty_types. fold n.
  set (lu := combine rows (ty_states g)). set (lp := combine (map (@length (Z * Z)) (ty_edges x)) (type_pairs n)).
  assert (LR : length rows = n) by apply rows_length.
  assert (LED : length (ty_edges x) = (n * n)%nat) by (unfold ty_edges; rewrite map_length; exact LE0).
  assert (LLU : length lu = n) by (unfold lu; rewrite combine_length; fold n; lia).
  assert (LLP : length lp = (n * n)%nat) by (unfold lp; rewrite combine_length, map_length, pairs_length; lia).
  assert (FU : map fst lu = rows) by (apply map_fst_combine_eq; fold n; lia).
  assert (SU : map snd lu = ty_states g) by (apply map_snd_combine_eq; fold n; lia).
  assert (FP : map fst lp = map (@length (Z * Z)) (ty_edges x)) by (apply map_fst_combine_eq; rewrite map_length, pairs_length; lia).
  assert (FP' : map (@length (Z * Z)) (ty_edges x) = map (fun p => length (x_edges n x (fst p) (snd p))) (type_pairs n)).
  { apply (nth_ext_d _ _ O); [rewrite !map_length, pairs_length; lia|]. intros k Hk. rewrite map_length, LED in Hk.
    destruct (split_index n k Hk) as [K1 [K2 K3]].
    rewrite (nth_map_in _ _ _ []) by lia. rewrite (nth_map_in _ _ _ (0, 0)%nat) by (rewrite pairs_length; lia).
    rewrite K3. rewrite edges_nth, pairs_nth by assumption. reflexivity. }
  assert (NU : forall t, (t < n)%nat -> nth t lu (0, 0)%nat = (x_rows x t, part (ty_states g) t)).
  { intros t Ht. unfold lu. rewrite nth_combine_d by (fold n; lia). fold (part rows t). unfold rows. rewrite rows_part by exact Ht. reflexivity. }
  assert (NP : forall a b, (a < n)%nat -> (b < n)%nat -> nth (a * n + b) lp (O, (0, 0)%nat) = (length (x_edges n x a b), (a, b))).
  { intros a b Ha Hb. pose proof (pair_lt a b n Ha Hb). unfold lp. rewrite nth_combine_d by (rewrite ?map_length, ?pairs_length; lia).
    rewrite pairs_nth by assumption. rewrite (nth_map_in _ _ _ []) by lia. rewrite edges_nth. reflexivity. }
  assert (PB : forall (f : nat -> nat -> nat) a b, (a < n)%nat -> (b <= n)%nat ->
     before (map (fun p => f (fst p) (snd p)) (type_pairs n)) (a * n + b) = TypedSpec.pairs_before f n a b).
  { intros f a b Ha Hb. rewrite TypedScore.pairs_before by assumption. reflexivity. }
  assert (PT : forall (f : nat -> nat -> nat), list_sum (map (fun p => f (fst p) (snd p)) (type_pairs n)) = TypedSpec.pairs_before f n n 0).
  { intros f. rewrite pairs_sum. unfold TypedSpec.pairs_before. cbn [seq map list_sum fold_right fst snd]. rewrite Nat.add_0_r. reflexivity. }
  assert (PS : forall a b, (a < n)%nat -> (b < n)%nat -> pair_start g (a, b) = TypedSpec.pairs_before (fun a b => part (ty_states g) a * part (ty_states g) b)%nat n a b).
  { intros a b Ha Hb. rewrite <- PB by (auto; lia). unfold pair_start, before. rewrite firstn_map. unfold ty_types. fold n. reflexivity. }
  eexists. eexists. split; [reflexivity|].
  assert (BU : forall t, (t < n)%nat -> let M := nth t (split_unary um lu 0 0) (Mat 0 0 []) in
     mrows M = x_rows x t /\ mcols M = part (ty_states g) t /\
     forall i s, (i < x_rows x t)%nat -> (s < part (ty_states g) t)%nat -> mget M i s = mget um (before rows t + i) (before (ty_states g) t + s)).
  { intros t Ht. cbv zeta. rewrite split_unary_nth by lia. rewrite FU, SU, NU by exact Ht. cbn [fst snd]. cbn [Nat.add].
    apply mat_block_ok.
    - rewrite HU1. pose proof (before_part_le rows t ltac:(lia)) as K. unfold rows in K at 2. rewrite rows_part in K by exact Ht. exact K.
    - rewrite HU2. apply before_part_le. fold n. lia. }
  assert (BP : forall a b, (a < n)%nat -> (b < n)%nat -> let M := nth (a * n + b) (split_pairwise g pm lp 0) (Mat 0 0 []) in
     mrows M = length (x_edges n x a b) /\ mcols M = (part (ty_states g) a * part (ty_states g) b)%nat /\
     forall e c, (e < length (x_edges n x a b))%nat -> (c < part (ty_states g) a * part (ty_states g) b)%nat ->
       mget M e c = mget pm (TypedSpec.pairs_before (fun a b => length (x_edges n x a b)) n a b + e)
               (TypedSpec.pairs_before (fun a b => part (ty_states g) a * part (ty_states g) b)%nat n a b + c)).
  { intros a b Ha Hb. pose proof (pair_lt a b n Ha Hb) as PL. cbv zeta. rewrite split_pairwise_nth by lia. rewrite FP, FP', NP by assumption. cbn [fst snd]. cbn [Nat.add].
    rewrite PS by assumption. rewrite (PB (fun a b => length (x_edges n x a b))) by (auto; lia). apply mat_block_ok.
    - rewrite HP1, <- PT, <- PB by (auto; lia).
      pose proof (before_part_le (map (fun p => length (x_edges n x (fst p) (snd p))) (type_pairs n)) (a * n + b)%nat) as K.
      rewrite map_length, pairs_length in K. specialize (K PL). unfold part in K at 1. rewrite (nth_map_in _ _ _ (0, 0)%nat) in K by (rewrite pairs_length; lia).
      rewrite pairs_nth in K by assumption. exact K.
    - rewrite HP2, <- PT, <- PB by (auto; lia).
      pose proof (before_part_le (map (fun p => part (ty_states g) (fst p) * part (ty_states g) (snd p))%nat (type_pairs n)) (a * n + b)%nat) as K.
      rewrite map_length, pairs_length in K. specialize (K PL). unfold part in K at 3. rewrite (nth_map_in _ _ _ (0, 0)%nat) in K by (rewrite pairs_length; lia).
      rewrite pairs_nth in K by assumption. exact K. }
  split; [|split].
  - unfold shapes_ok. cbv zeta. fold n. rewrite split_unary_length, split_pairwise_length. split; [exact LLU|]. split; [exact LLP|]. split.
    + intros t Ht. destruct (BU t Ht) as [A [B _]]. auto.
    + intros a b Ha Hb. destruct (BP a b Ha Hb) as [A [B _]]. auto.
  - intros t i s Ht. destruct (BU t Ht) as [_ [_ B]]. apply B.
  - intros a b e c Ha Hb. destruct (BP a b Ha Hb) as [_ [_ B]]. apply B.
Qed.

Lemma joint_arrays g x um pm : well_typed g -> typed_instance g x ->
  let n := length (ty_states g) in
  let rows := type_rows n x in
  mrows um = list_sum rows -> mcols um = list_sum (ty_states g) ->
  mrows pm = TypedSpec.pairs_before (fun a b => length (x_edges n x a b)) n n 0 ->
  mcols pm = TypedSpec.pairs_before (fun a b => part (ty_states g) a * part (ty_states g) b)%nat n n 0 ->
  exists psi, ty_joint_feature g x (TRelaxed (MArray um) (MArray pm)) = Ok psi /\ length psi = ty_size g /\
    forall w, length w = ty_size g -> dot w psi =
      sumn n (fun t => sumn (x_rows x t) (fun i => sumn (part (ty_states g) t) (fun s =>
        mget um (before rows t + i) (before (ty_states g) t + s) * type_score g w t (x_feat x t i) s))) +
      sumn n (fun a => sumn n (fun b => sumn (length (x_edges n x a b)) (fun e =>
        sumn (part (ty_states g) a) (fun s => sumn (part (ty_states g) b) (fun s' =>
          mget pm (TypedSpec.pairs_before (fun a b => length (x_edges n x a b)) n a b + e)
                  (TypedSpec.pairs_before (fun a b => part (ty_states g) a * part (ty_states g) b)%nat n a b + (s * part (ty_states g) b + s')) *
          pair_types_score g w a b (x_edge_feat n x a b e) s s'))))).
Proof.
  intros W T n rows HU1 HU2 HP1 HP2. destruct (arrays_ok g x um pm W T HU1 HU2 HP1 HP2) as [ums [pms [E [SH [MU MP]]]]].
  destruct (joint_core g x _ ums pms W T E SH) as [psi [P1 [P2 P3]]]. exists psi. split; [exact P1|]. split; [exact P2|].
  intros w Hw. rewrite P3 by exact Hw. fold n. fold n in MU, MP. fold rows in MU. f_equal.
  - apply sumn_ext. intros t Ht. apply sumn_ext. intros i Hi. apply sumn_ext. intros s Hs. rewrite MU by assumption. reflexivity.
  - apply sumn_ext. intros a Ha. apply sumn_ext. intros b Hb. apply sumn_ext. intros e He. apply sumn_ext. intros s Hs. apply sumn_ext. intros s' Hs'.
    rewrite MP by (try assumption; nia). reflexivity.
Qed.

(** ** sums over the nodes of all types *)
Lemma sumn_types rows (f : nat -> Qc) :
  sumn (list_sum rows) f = sumn (length rows) (fun t => sumn (part rows t) (fun i => f (before rows t + i)%nat)).
Proof.
  revert f. induction rows as [|r rows IH]; intro f; [reflexivity|]. cbn [list_sum fold_right length]. change (fold_right Nat.add 0%nat) with list_sum.
  rewrite sumn_split, sumn_S_l. unfold part at 1. cbn [nth]. f_equal.
  rewrite IH. apply sumn_ext. intros t Ht. unfold part. cbn [nth]. apply sumn_ext. intros i Hi. f_equal. rewrite before_cons. lia.
Qed.

(** ** loss augmentation *)
Lemma laug_loop_ok (l : list (mat * list Qc * nat)) : forall y,
  list_sum (map (fun q => mrows (fst (fst q))) l) = length y ->
  Forall (fun q => length (snd (fst q)) = mcols (fst (fst q))) l ->
  (forall t i, (t < length l)%nat -> let '(u, cw, a) := nth t l (Mat 0 0 [], [], O) in (i < mrows u)%nat ->
     (Z.of_nat a <= nth (before (map (fun q => mrows (fst (fst q))) l) t + i) y 0%Z < Z.of_nat (a + mcols u))%Z) ->
  exists us', laug_loop l y = Ok us' /\ length us' = length l /\
    forall t, (t < length l)%nat -> let '(u, cw, a) := nth t l (Mat 0 0 [], [], O) in
      let u' := nth t us' (Mat 0 0 []) in
      mat_ok u' /\ mrows u' = mrows u /\ mcols u' = mcols u /\
      forall i s, (i < mrows u)%nat -> (s < mcols u)%nat ->
        let k := Z.to_nat (nth (before (map (fun q => mrows (fst (fst q))) l) t + i) y 0%Z - Z.of_nat a) in
        mget u' i s = mget u i s + if (k =? s)%nat then 0 else get1 cw k.
Proof.
  induction l as [|[[u cw] a] l IH]; intros y Hy HC HR.
  - exists []. split; [reflexivity|]. split; [reflexivity|]. intros t Ht. simpl in Ht. lia.
  - cbn [map list_sum fold_right fst snd] in Hy. change (fold_right Nat.add 0%nat) with list_sum in Hy.
    inversion HC as [|? ? HC0 HC1]; subst. cbn [fst snd] in HC0.
    destruct (IH (skipn (mrows u) y)) as [us [E [L N]]]; [rewrite skipn_length; lia|exact HC1| |].
    { intros t i Ht. specialize (HR (S t) i ltac:(simpl; lia)). cbn [nth map fst snd] in HR. destruct (nth t l (Mat 0 0 [], [], O)) as [[u' cw'] a'].
      intro Hi. rewrite before_cons in HR. rewrite nth_skipn, Nat.add_assoc. apply HR, Hi. }
    assert (HF : forall i, (i < mrows u)%nat -> (Z.of_nat a <= nth i y 0%Z < Z.of_nat (a + mcols u))%Z).
    { intros i Hi. specialize (HR O i ltac:(simpl; lia)). cbn [nth map fst snd] in HR. rewrite before_0 in HR. apply HR, Hi. }
    set (yt := map (c_label u cw) (zminus (firstn (mrows u) y) a)).
    assert (LY : length yt = mrows u) by (unfold yt, zminus; rewrite !map_length, firstn_length; lia).
    assert (NY : forall i, (i < mrows u)%nat -> lab yt i = Z.to_nat (nth i y 0%Z - Z.of_nat a)).
    { intros i Hi. unfold lab, yt, zminus. rewrite map_map. rewrite (nth_map_in _ _ _ 0%Z) by (rewrite firstn_length; lia). rewrite nth_firstn by exact Hi.
      unfold c_label. specialize (HF i Hi). replace (nth i y 0 - Z.of_nat a <? 0)%Z with false by (symmetry; apply Z.ltb_ge; lia). reflexivity. }
    destruct (loss_augment_ok u yt cw (mrows u) (mcols u) eq_refl eq_refl HC0) as [u' [E' [O' [R' [C' V']]]]].
    { split; [exact LY|]. apply Forall_forall. intros s Hs. apply (In_nth _ _ O) in Hs. destruct Hs as [i [Hi <-]]. rewrite LY in Hi.
      change (nth i yt O) with (lab yt i). rewrite NY by exact Hi. specialize (HF i Hi). lia. }
    cbn [laug_loop]. fold yt. rewrite E'. cbn [bind]. rewrite E. cbn [bind]. eexists. split; [reflexivity|]. split; [simpl; congruence|].
    intros t Ht. destruct t as [|t]; cbn [nth map fst snd].
    + rewrite before_0. split; [exact O'|]. split; [exact R'|]. split; [exact C'|]. intros i s Hi Hs. rewrite V' by assumption. rewrite NY by exact Hi. reflexivity.
    + specialize (N t ltac:(simpl in Ht; lia)). destruct (nth t l (Mat 0 0 [], [], O)) as [[u2 cw2] a2]. destruct N as [N1 [N2 [N3 N4]]].
      split; [exact N1|]. split; [exact N2|]. split; [exact N3|]. intros i s Hi Hs. rewrite N4 by assumption. rewrite before_cons, nth_skipn, Nat.add_assoc. reflexivity.
Qed.

(** unaries of the right shapes *)
Definition unaries_ok (g : ty_crf) (x : typed_x) (us : list mat) : Prop :=
  length us = length (ty_states g) /\
  forall t, (t < length (ty_states g))%nat -> mrows (nth t us (Mat 0 0 [])) = x_rows x t /\ mcols (nth t us (Mat 0 0 [])) = part (ty_states g) t.

Section Laug.
  Variables (g : ty_crf) (x : typed_x) (us : list mat).
  Hypothesis W : well_typed g.
  Hypothesis SH : unaries_ok g x us.
  Let n := length (ty_states g).
  Let rows := type_rows n x.
  Let l := combine (combine us (ty_weights g)) (type_starts (ty_states g)).
  Lemma laug_list : length l = n /\
    (forall t, (t < n)%nat -> nth t l (Mat 0 0 [], [], O) = (nth t us (Mat 0 0 []), nth t (ty_weights g) [], before (ty_states g) t)) /\
    map (fun q => mrows (fst (fst q))) l = rows /\ Forall (fun q => length (snd (fst q)) = mcols (fst (fst q))) l.
  Proof.
    destruct SH as [LU SU]. fold n in LU, SU. destruct W as (_ & _ & _ & _ & _ & LW & CW). fold n in LW, CW.
    assert (LL : length l = n) by (unfold l; rewrite !combine_length, starts_length; fold n; lia).
    assert (NL : forall t, (t < n)%nat -> nth t l (Mat 0 0 [], [], O) = (nth t us (Mat 0 0 []), nth t (ty_weights g) [], before (ty_states g) t)).
    { intros t Ht. unfold l. rewrite nth_combine_d by (rewrite ?combine_length, ?starts_length; fold n; lia).
      rewrite nth_combine_d by lia. rewrite starts_nth by (fold n; lia). reflexivity. }
    split; [exact LL|]. split; [exact NL|]. split.
    - apply (nth_ext_d _ _ O); [rewrite map_length, LL; unfold rows; rewrite rows_length; reflexivity|]. intros k Hk. rewrite map_length, LL in Hk.
      rewrite (nth_map_in _ _ _ (Mat 0 0 [], [], O)) by lia. rewrite NL by exact Hk. cbn [fst snd]. fold (part rows k). unfold rows. rewrite rows_part by exact Hk.
      apply SU, Hk.
    - apply Forall_forall. intros q Hq. apply (In_nth _ _ (Mat 0 0 [], [], O)) in Hq. destruct Hq as [k [Hk <-]]. rewrite LL in Hk. rewrite NL by exact Hk.
      cbn [fst snd]. rewrite CW by exact Hk. symmetry. apply SU, Hk.
  Qed.

  Lemma ty_laug_ok y : typed_labelling (ty_states g) rows y ->
    exists us', ty_loss_augment g us y = Ok us' /\ unaries_ok g x us' /\
      forall t, (t < n)%nat -> mat_ok (nth t us' (Mat 0 0 [])) /\ forall i s, (i < x_rows x t)%nat -> (s < part (ty_states g) t)%nat ->
        let k := typed_lab (ty_states g) rows y t i in
        mget (nth t us' (Mat 0 0 [])) i s = mget (nth t us (Mat 0 0 [])) i s + if (k =? s)%nat then 0 else get1 (nth t (ty_weights g) []) k.
  Proof.
    intros [LY YR]. fold n in YR. destruct laug_list as [LL [NL [MR FC]]]. destruct SH as [LU SU]. fold n in LU, SU.
    destruct (laug_loop_ok l y) as [us' [E [L N]]].
    - rewrite MR. auto.
    - exact FC.
    - intros t i Ht. rewrite LL in Ht. rewrite NL by exact Ht. intro Hi. rewrite MR. destruct (SU t Ht) as [R C]. rewrite C.
      apply YR; [exact Ht|]. unfold rows. rewrite rows_part by exact Ht. congruence.
    - exists us'. split; [exact E|].
      assert (K : forall t, (t < n)%nat -> let u' := nth t us' (Mat 0 0 []) in
         mat_ok u' /\ mrows u' = x_rows x t /\ mcols u' = part (ty_states g) t /\
         forall i s, (i < x_rows x t)%nat -> (s < part (ty_states g) t)%nat ->
          let k := typed_lab (ty_states g) rows y t i in
          mget u' i s = mget (nth t us (Mat 0 0 [])) i s + if (k =? s)%nat then 0 else get1 (nth t (ty_weights g) []) k).
      { intros t Ht. specialize (N t ltac:(lia)). rewrite NL in N by exact Ht. rewrite MR in N. destruct (SU t Ht) as [R C]. rewrite R, C in N. exact N. }
      split; [split; [fold n; lia|]|]; intros t Ht; destruct (K t Ht) as [A [B [C D]]]; auto.
  Qed.

  Lemma laug_bad_row u (y : list nat) cw i : length y = mrows u -> length cw = mcols u -> (0 < mcols u)%nat ->
    (i < mrows u)%nat -> (mcols u <= lab y i)%nat -> loss_augment_unaries u y cw = Err OutOfBounds.
  Proof.
    clear. intros LY LC K Hi Hb. unfold loss_augment_unaries.
    assert (CY : forall j, (j < mrows u)%nat -> cindex y j = Ok (lab y j)).
    { intros j Hj. unfold cindex. rewrite (nth_error_nth' y O) by lia. reflexivity. }
    assert (ROW : forall j, (j < mrows u)%nat -> (lab y j < mcols u)%nat -> exists r, mapM (fun s => let! yi := cindex y j in if (s =? yi)%nat then Ok (mget u j s) else let! c := cindex cw yi in Ok (mget u j s + c)) (seq 0 (mcols u)) = Ok r).
    { intros j Hj Hl. apply mapM_total. intros s _. rewrite CY by exact Hj. cbn [bind]. destruct (s =? lab y j)%nat; [eexists; reflexivity|].
      unfold cindex. rewrite (nth_error_nth' cw 0) by lia. cbn [bind]. eexists; reflexivity. }
    assert (BAD : forall j, (j < mrows u)%nat -> (mcols u <= lab y j)%nat -> mapM (fun s => let! yi := cindex y j in if (s =? yi)%nat then Ok (mget u j s) else let! c := cindex cw yi in Ok (mget u j s + c)) (seq 0 (mcols u)) = Err OutOfBounds).
    { intros j Hj Hl. destruct (mcols u) as [|k]; [lia|]. cbn [seq mapM]. rewrite CY by exact Hj. cbn [bind].
      replace (0 =? lab y j)%nat with false by (symmetry; apply Nat.eqb_neq; lia). unfold cindex at 1.
      replace (nth_error cw (lab y j)) with (@None Qc) by (symmetry; apply nth_error_None; lia). reflexivity. }
    rewrite (mapM_err _ OutOfBounds); [reflexivity| |].
    - intros j Hj. apply in_seq in Hj. destruct (Nat.lt_ge_cases (lab y j) (mcols u)); [left; apply ROW; [lia|assumption]|right; apply BAD; [lia|assumption]].
    - exists i. split; [apply in_seq; lia|]. apply BAD; assumption.
  Qed.

  Lemma ty_laug_bad y : length y = list_sum rows -> (forall t, (t < n)%nat -> (0 < part (ty_states g) t)%nat) ->
    ~ typed_labelling (ty_states g) rows y -> ty_loss_augment g us y = Err OutOfBounds.
  Proof.
    intros LY PS NT. destruct laug_list as [LL [NL [MR FC]]]. destruct SH as [LU SU]. fold n in LU, SU.
    assert (BAD : ~ (forall t i, (t < length l)%nat -> let '(u, cw, a) := nth t l (Mat 0 0 [], [], O) in (i < mrows u)%nat ->
        (Z.of_nat a <= nth (before (map (fun q => mrows (fst (fst q))) l) t + i) y 0%Z < Z.of_nat (a + mcols u))%Z)).
    { intro H. apply NT. split; [exact LY|]. fold n. intros t i Ht Hi. specialize (H t i ltac:(lia)). rewrite NL in H by exact Ht. rewrite MR in H.
      destruct (SU t Ht) as [R C]. rewrite R, C in H. apply H. unfold rows in Hi. rewrite rows_part in Hi by exact Ht. exact Hi. }
    assert (POS : Forall (fun q => (0 < mcols (fst (fst q)))%nat) l).
    { apply Forall_forall. intros q Hq. apply (In_nth _ _ (Mat 0 0 [], [], O)) in Hq. destruct Hq as [k [Hk <-]]. rewrite LL in Hk. rewrite NL by exact Hk.
      cbn [fst snd]. destruct (SU k Hk) as [_ ->]. apply PS, Hk. }
    unfold ty_loss_augment. fold l. rewrite <- MR in LY. clear LL NL MR NT SU LU. revert y LY BAD FC POS. generalize l as l0.
    induction l0 as [|[[u cw] a] l0 IH]; intros y LY BAD FC POS.
    - exfalso. apply BAD. intros t i Ht. simpl in Ht. lia.
    - cbn [map list_sum fold_right fst snd] in LY. change (fold_right Nat.add 0%nat) with list_sum in LY.
      inversion FC as [|? ? FC0 FC1]; subst. inversion POS as [|? ? P0 P1]; subst. cbn [fst snd] in FC0, P0. cbn [laug_loop].
      set (yt := map (c_label u cw) (zminus (firstn (mrows u) y) a)).
      assert (LYT : length yt = mrows u) by (unfold yt, zminus; rewrite !map_length, firstn_length; lia).
      assert (NY : forall i, (i < mrows u)%nat -> lab yt i = c_label u cw (nth i y 0%Z - Z.of_nat a)).
      { intros i Hi. unfold lab, yt, zminus. rewrite map_map. rewrite (nth_map_in _ _ _ 0%Z) by (rewrite firstn_length; lia). rewrite nth_firstn by exact Hi. reflexivity. }
      destruct (forallb (fun s => s <? mcols u)%nat yt) eqn:Q.
      + assert (GOOD : forall i, (i < mrows u)%nat -> (Z.of_nat a <= nth i y 0%Z < Z.of_nat (a + mcols u))%Z).
        { intros i Hi. rewrite forallb_forall in Q. specialize (Q (lab yt i) ltac:(apply nth_In; lia)). apply Nat.ltb_lt in Q. rewrite NY in Q by exact Hi.
          unfold c_label in Q. destruct (Z.ltb_spec (nth i y 0 - Z.of_nat a)%Z 0%Z) as [J|J]; lia. }
        destruct (loss_augment_ok u yt cw (mrows u) (mcols u) eq_refl eq_refl FC0) as [u' [E' _]].
        { split; [exact LYT|]. apply Forall_forall. intros s Hs. rewrite forallb_forall in Q. apply Nat.ltb_lt, Q, Hs. }
        rewrite E'. cbn [bind]. rewrite IH; [reflexivity|rewrite skipn_length; lia| |exact FC1|exact P1].
        intro H. apply BAD. intros t i Ht. destruct t as [|t]; cbn [nth map fst snd].
        * intro Hi. rewrite before_0. apply GOOD, Hi.
        * specialize (H t i ltac:(simpl in Ht; lia)). destruct (nth t l0 (Mat 0 0 [], [], O)) as [[u2 cw2] a2]. rewrite before_cons. rewrite nth_skipn, Nat.add_assoc in H. exact H.
      + assert (X : exists i, (i < mrows u)%nat /\ (mcols u <= lab yt i)%nat).
        { destruct (existsb (fun s => mcols u <=? s)%nat yt) eqn:X.
          - apply existsb_exists in X. destruct X as [s [Hs X]]. apply (In_nth _ _ O) in Hs. destruct Hs as [i [Hi <-]]. exists i. split; [lia|]. apply Nat.leb_le in X. exact X.
          - assert (forallb (fun s => s <? mcols u)%nat yt = true); [|congruence]. apply forallb_forall. intros s Hs. apply Nat.ltb_lt.
            destruct (Nat.lt_ge_cases s (mcols u)) as [J|J]; [exact J|]. assert (existsb (fun s => mcols u <=? s)%nat yt = true); [|congruence].
            apply existsb_exists. exists s. split; [exact Hs|]. apply Nat.leb_le. exact J. }
        destruct X as [i [Hi X]]. rewrite (laug_bad_row u yt cw i) by (auto; lia). reflexivity.
  Qed.
End Laug.

(** ** the loss *)
Lemma weights_nth g t s : well_typed g -> (t < length (ty_states g))%nat -> (s < part (ty_states g) t)%nat ->
  get1 (ty_class_weight g) (before (ty_states g) t + s) = get1 (nth t (ty_weights g) []) s.
Proof.
  intros (_ & _ & _ & _ & _ & LW & CW) Ht Hs. unfold ty_class_weight, get1.
  replace (ty_states g) with (map (@length Qc) (ty_weights g)) in *.
  - apply concat_blocks; [lia|]. unfold part in Hs. rewrite (nth_map_in _ _ _ []) in Hs by lia. exact Hs.
  - apply (nth_ext_d _ _ O); [rewrite map_length; exact LW|]. intros k Hk. rewrite map_length, LW in Hk. rewrite (nth_map_in _ _ _ []) by lia. apply CW, Hk.
Qed.
Lemma class_weight_length g : well_typed g -> length (ty_class_weight g) = list_sum (ty_states g).
Proof.
  intros (_ & _ & _ & _ & _ & LW & CW). unfold ty_class_weight. rewrite concat_len. f_equal.
  apply (nth_ext_d _ _ O); [rewrite map_length; exact LW|]. intros k Hk. rewrite map_length, LW in Hk. rewrite (nth_map_in _ _ _ []) by lia. apply CW, Hk.
Qed.
Lemma nat_lab states rows y t i : typed_labelling states rows (map Z.of_nat y) -> (t < length states)%nat -> (i < part rows t)%nat -> (t < length rows)%nat ->
  lab y (before rows t + i) = (before states t + typed_lab states rows (map Z.of_nat y) t i)%nat.
Proof.
  intros [L H] Ht Hi Hr. specialize (H t i Ht Hi). unfold typed_lab, lab. rewrite map_length in L.
  pose proof (before_part_le rows t Hr). assert (Hp : (before rows t + i < length y)%nat) by lia.
  rewrite (nth_map_in Z.of_nat y _ O) in * by exact Hp. lia.
Qed.
Lemma typed_labelling_nat g x y : well_typed g ->
  typed_labelling (ty_states g) (type_rows (length (ty_states g)) x) (map Z.of_nat y) ->
  labelling (list_sum (type_rows (length (ty_states g)) x)) (list_sum (ty_states g)) y.
Proof.
  intros W [L H]. rewrite map_length in L. split; [exact L|]. apply Forall_forall. intros s Hs. apply (In_nth _ _ O) in Hs. destruct Hs as [k [Hk <-]].
  rewrite L in Hk. clear L. set (rows := type_rows _ x) in *.
  assert (K : forall rows' k, (k < list_sum rows')%nat -> exists t i, (t < length rows')%nat /\ (i < part rows' t)%nat /\ k = (before rows' t + i)%nat).
  { clear. induction rows' as [|r rows' IH]; intros k Hk; [simpl in Hk; lia|]. destruct (Nat.lt_ge_cases k r) as [J|J].
    - exists O, k. simpl. unfold part. simpl. split; [lia|]. split; [exact J|]. reflexivity.
    - cbn [list_sum fold_right] in Hk. change (fold_right Nat.add 0%nat) with list_sum in Hk. destruct (IH (k - r)%nat ltac:(lia)) as [t [i [A [B C]]]]. exists (S t), i.
      split; [simpl; lia|]. split; [exact B|]. rewrite before_cons. lia. }
  destruct (K rows k Hk) as [t [i [A [B ->]]]]. assert (LR : length rows = length (ty_states g)) by apply rows_length. rewrite LR in A.
  specialize (H t i A B). destruct (Nat.lt_ge_cases (before rows t + i) (length y)) as [J|J].
  - rewrite (nth_map_in _ _ _ O) in H by exact J. pose proof (before_part_le (ty_states g) t A). lia.
  - rewrite nth_overflow by exact J. rewrite nth_overflow in H by (rewrite map_length; exact J). pose proof (before_part_le (ty_states g) t A). lia.
Qed.
Lemma ty_hamming g x y y' : well_typed g -> let n := length (ty_states g) in let rows := type_rows n x in
  typed_labelling (ty_states g) rows (map Z.of_nat y) -> typed_labelling (ty_states g) rows (map Z.of_nat y') ->
  hamming (length y) (get1 (ty_class_weight g)) (lab y) (lab y') =
  sumn n (fun t => sumn (x_rows x t) (fun i =>
    let k := typed_lab (ty_states g) rows (map Z.of_nat y) t i in
    if (k =? typed_lab (ty_states g) rows (map Z.of_nat y') t i)%nat then 0 else get1 (nth t (ty_weights g) []) k)).
Proof.
  intros W n rows Y Y'. pose proof Y as [L _]. rewrite map_length in L. rewrite L. unfold hamming. rewrite sumn_types.
  assert (LR : length rows = n) by apply rows_length. rewrite LR. apply sumn_ext. intros t Ht. unfold rows at 1. rewrite rows_part by exact Ht.
  apply sumn_ext. intros i Hi. assert (Hi' : (i < part rows t)%nat) by (unfold rows; rewrite rows_part by exact Ht; exact Hi).
  rewrite !(nat_lab (ty_states g) rows) by (auto; fold n; lia). cbv zeta.
  set (k := typed_lab (ty_states g) rows (map Z.of_nat y) t i). set (k' := typed_lab (ty_states g) rows (map Z.of_nat y') t i).
  assert (HK : (k < part (ty_states g) t)%nat) by (apply typed_lab_lt; assumption).
  rewrite weights_nth by assumption. destruct (Nat.eqb_spec k k') as [->|J]; [rewrite Nat.eqb_refl; reflexivity|].
  replace (before (ty_states g) t + k =? before (ty_states g) t + k')%nat with false by (symmetry; apply Nat.eqb_neq; lia). reflexivity.
Qed.
Lemma ty_loss_ok g x y y' : well_typed g -> let rows := type_rows (length (ty_states g)) x in
  typed_labelling (ty_states g) rows (map Z.of_nat y) -> length y' = length y ->
  loss (Some (ty_class_weight g)) y y' = Ok (hamming (length y) (get1 (ty_class_weight g)) (lab y) (lab y')).
Proof.
  intros W rows Y L. pose proof (typed_labelling_nat g x y W Y) as [L1 F1].
  apply (loss_weighted (length y) (list_sum (ty_states g))); [apply class_weight_length; exact W| |exact L]. split; [reflexivity|exact F1].
Qed.

(** augmented potentials score a labelling with its score plus its loss *)
Lemma laug_score g x us us' Ps y y' : well_typed g -> unaries_ok g x us -> let n := length (ty_states g) in let rows := type_rows n x in
  typed_labelling (ty_states g) rows (map Z.of_nat y) -> typed_labelling (ty_states g) rows (map Z.of_nat y') ->
  ty_loss_augment g us (map Z.of_nat y) = Ok us' ->
  potentials_score n (x_rows x) (x_edges n x) us' Ps (typed_lab (ty_states g) rows (map Z.of_nat y')) =
  potentials_score n (x_rows x) (x_edges n x) us Ps (typed_lab (ty_states g) rows (map Z.of_nat y')) +
  hamming (length y) (get1 (ty_class_weight g)) (lab y) (lab y').
Proof.
  intros W SH n rows Y Y' E. destruct (ty_laug_ok g x us W SH (map Z.of_nat y) Y) as [us2 [E2 [_ V]]]. assert (us2 = us') by congruence. subst us2.
  rewrite (ty_hamming g x y y' W Y Y'). unfold potentials_score, typed_score. fold n. fold rows.
  match goal with |- ?a + ?b = ?c + ?b + ?d => assert (K : a = c + d); [|rewrite K; ring] end.
  rewrite <- sumn_plus. apply sumn_ext. intros t Ht. rewrite <- sumn_plus. apply sumn_ext. intros i Hi.
  destruct (V t Ht) as [_ V']. fold n in V'. fold rows in V'. rewrite V'; [reflexivity|exact Hi|].
  apply typed_lab_lt; [exact Y'|exact Ht|]. unfold rows. rewrite rows_part by exact Ht. exact Hi.
Qed.

From Verif Require Import Model.Unstructured Spec.ClassSpec Proofs.Arrays Proofs.LossProofs Proofs.CRFProofs.

(** ** generic *)
Lemma mapM_map {A B C} (g : B -> res C) (f : A -> B) l : mapM g (map f l) = mapM (fun a => g (f a)) l.
Proof. induction l; simpl; auto. rewrite IHl. reflexivity. Qed.
Lemma mapM_ext {A B} (f g : A -> res B) l : (forall a, In a l -> f a = g a) -> mapM f l = mapM g l.
Proof.
  induction l; simpl; intro H; auto. rewrite H by auto. rewrite IHl by auto. reflexivity.
Qed.
Lemma mapM_all_err {A B} (f : A -> res B) e l : l <> [] -> (forall a, In a l -> f a = Err e) -> mapM f l = Err e.
Proof. destruct l; [congruence|]. intros _ H. simpl. rewrite H by (simpl; auto). reflexivity. Qed.

Lemma vadd_tab1 m f g : vadd (tab1 m f) (tab1 m g) = tab1 m (fun j => f j + g j).
Proof. unfold vadd, tab1. apply (zipw_map_seq Qcplus f g m 0). Qed.
Lemma vadd_concat_tab2 n m f g :
  vadd (concat (tab2 n m f)) (concat (tab2 n m g)) = concat (tab2 n m (fun s j => f s j + g s j)).
Proof.
  induction n.
  - reflexivity.
  - rewrite !tab2_S, !concat_app. unfold vadd in *.
    rewrite zipw_app by (rewrite !concat_tab2_length; reflexivity).
    rewrite IHn. f_equal. simpl. rewrite !app_nil_r. apply vadd_tab1.
Qed.
Lemma vzero_tab2 n m : vzero (n * m) = concat (tab2 n m (fun _ _ => 0)).
Proof.
  apply vec_ext. { rewrite vzero_length, concat_tab2_length. reflexivity. }
  intros i Hi. rewrite vzero_length in Hi. rewrite get1_vzero.
  destruct m as [|m]; [lia|]. 
  rewrite (Nat.div_mod i (S m)) at 1 by lia. rewrite (Nat.mul_comm (S m)).
  rewrite get1_concat_tab2; auto.
  - apply Nat.div_lt_upper_bound; lia.
  - apply Nat.mod_upper_bound. lia.
Qed.

Lemma rows_of_mat {A} (g : list Qc -> A) X : mat_ok X ->
  map (fun i => g (nth i (mdat X) [])) (seq 0 (mrows X)) = map g (mdat X).
Proof.
  intros [L _]. rewrite <- L. generalize (mdat X) as d. intro d. clear.
  rewrite <- (map_map (fun i => nth i d []) g). f_equal.
  induction d; simpl; auto. f_equal. rewrite <- seq_shift, map_map. exact IHd.
Qed.

(** ** scores *)
Lemma reshape_auto_ok w k F : (0 < k)%nat -> length w = (k * F)%nat ->
  reshape_auto w k = Ok (mtab k F (fun i j => get1 w (i * F + j))).
Proof.
  intros Hk Hw. unfold reshape_auto. destruct (Nat.eqb_spec k 0); [lia|].
  rewrite Hw, (Nat.mul_comm k F), Nat.div_mul by lia. apply reshape_ok. lia.
Qed.
Lemma reshape_auto_cases w k :
  reshape_auto w k = Err ValueError \/
  ((0 < k)%nat /\ length w = (k * (length w / k))%nat /\
   reshape_auto w k = Ok (mtab k (length w / k) (fun i j => get1 w (i * (length w / k) + j)))).
Proof.
  unfold reshape_auto. destruct (Nat.eqb_spec k 0); [auto|].
  destruct (Nat.eq_dec (length w) (k * (length w / k))).
  - right. split; [lia|]. split; auto. apply reshape_ok; auto.
  - left. apply reshape_err; auto.
Qed.
Lemma mat_vec_ok X w : mcols X = length w ->
  mat_vec X w = Ok (tab1 (mrows X) (fun i => sumn (mcols X) (fun j => mget X i j * get1 w j))).
Proof. intro H. unfold mat_vec. rewrite H, Nat.eqb_refl. reflexivity. Qed.
Lemma mat_vec_err X w : mcols X <> length w -> mat_vec X w = Err ValueError.
Proof. intro H. unfold mat_vec. apply Nat.eqb_neq in H. rewrite H. reflexivity. Qed.

Lemma mat_vec_class k F w x : length x = F ->
  mat_vec (mtab k F (fun i j => get1 w (i * F + j))) x = Ok (tab1 k (class_score F w x)).
Proof.
  intro H. rewrite mat_vec_ok by (symmetry; exact H). f_equal. apply tab1_ext. intros s Hs.
  unfold class_score. cbn [mcols mtab]. apply sumn_ext. intros j Hj.
  rewrite mget_mtab by auto. reflexivity.
Qed.

Lemma mc_scores_ok m x w : (0 < mc_states m)%nat -> length w = mc_size m -> length x = mc_features m ->
  mc_scores m x w = Ok (tab1 (mc_states m) (class_score (mc_features m) w x)).
Proof.
  intros Hk Hw Hx. unfold mc_scores. rewrite (reshape_auto_ok w _ (mc_features m)) by auto.
  cbn [bind]. apply mat_vec_class; auto.
Qed.

Lemma argmax_tab1 k f : (0 < k)%nat -> exists s, np_argmax (tab1 k f) = Ok s /\ first_argmax k f s.
Proof.
  intro Hk. destruct (np_argmax_ok (tab1 k f)) as [s Hs]. { rewrite tab1_length; auto. }
  exists s. split; auto. apply np_argmax_spec in Hs. rewrite tab1_length in Hs.
  destruct Hs as [H1 [H2 H3]]. split; auto. split.
  - intros t Ht. specialize (H2 t Ht). rewrite !get1_tab1 in H2 by auto. exact H2.
  - intros t Ht. specialize (H3 t Ht). rewrite !get1_tab1 in H3 by lia. exact H3.
Qed.
Lemma max_tab1 k f s : first_argmax k f s -> np_max (tab1 k f) = Ok (f s).
Proof.
  intros [H1 [H2 _]]. destruct (np_max (tab1 k f)) as [v|e] eqn:E.
  - apply np_max_spec in E. destruct E as [Hin Hm]. f_equal. apply Qcle_antisym.
    + unfold tab1 in Hin. apply in_map_iff in Hin. destruct Hin as [t [<- Ht]].
      apply in_seq in Ht. apply H2. lia.
    + apply Hm. unfold tab1. apply in_map. apply in_seq. lia.
  - destruct k; [lia|]. discriminate.
Qed.

Lemma mc_inference_exact m x w : (0 < mc_states m)%nat -> length w = mc_size m -> length x = mc_features m ->
  exists s, mc_inference m x w = Ok s /\
    mc_inference_energy m x w = Ok (s, class_score (mc_features m) w x s) /\
    first_argmax (mc_states m) (class_score (mc_features m) w x) s.
Proof.
  intros Hk Hw Hx. destruct (argmax_tab1 (mc_states m) (class_score (mc_features m) w x) Hk) as [s [E H]].
  exists s. unfold mc_inference, mc_inference_energy. rewrite mc_scores_ok by auto. cbn [bind].
  rewrite E. cbn [bind]. rewrite (max_tab1 _ _ s H). auto.
Qed.

Lemma mc_augmented_ok m x y w c : (0 < mc_states m)%nat -> length w = mc_size m -> length x = mc_features m ->
  (if mc_rescale m then Ok 1 else index (mc_cw m) y) = Ok c ->
  mc_augmented_scores m x y w =
    Ok (tab1 (mc_states m) (fun t => class_score (mc_features m) w x t + (if (t =? y)%nat then 0 else c))).
Proof.
  intros Hk Hw Hx Hc. unfold mc_augmented_scores. rewrite mc_scores_ok by auto. cbn [bind].
  rewrite Hc. cbn [bind]. rewrite tab1_length. f_equal. apply tab1_ext. intros t Ht.
  rewrite get1_tab1 by auto. destruct (t =? y)%nat; ring.
Qed.
Lemma mc_laug_exact m x y w c : (0 < mc_states m)%nat -> length w = mc_size m -> length x = mc_features m ->
  (if mc_rescale m then Ok 1 else index (mc_cw m) y) = Ok c ->
  let f := fun t => class_score (mc_features m) w x t + (if (t =? y)%nat then 0 else c) in
  exists s, mc_laug m x y w = Ok s /\ mc_laug_energy m x y w = Ok (s, f s) /\
            first_argmax (mc_states m) f s.
Proof.
  intros Hk Hw Hx Hc f. destruct (argmax_tab1 (mc_states m) f Hk) as [s [E H]].
  exists s. unfold mc_laug, mc_laug_energy. rewrite (mc_augmented_ok m x y w c) by auto. cbn [bind].
  fold f. rewrite E. cbn [bind]. rewrite (max_tab1 _ _ s H). auto.
Qed.

(** ** joint feature *)
Lemma mc_joint_ok m x y yt c : (y < mc_states m)%nat -> length x = mc_features m ->
  (if mc_rescale m then exists t, yt = Some t /\ index (mc_cw m) t = Ok c else c = 1) ->
  mc_joint_feature m x y yt = Ok (class_feature c (mc_states m) (mc_features m) x y).
Proof.
  intros Hy Hx Hc. unfold mc_joint_feature, bcast_row.
  apply Nat.ltb_lt in Hy. rewrite Hy, Hx, Nat.eqb_refl. cbn [ensure bind].
  unfold class_feature, ravel. destruct (mc_rescale m).
  - destruct Hc as [t [-> Ht]]. rewrite Ht. cbn [bind]. f_equal. cbn [mdat mtab]. f_equal.
    apply tab2_ext. intros s j Hs Hj. rewrite mget_mtab by auto. destruct (s =? y)%nat; ring.
  - subst c. f_equal. cbn [mdat mtab]. f_equal. apply tab2_ext. intros s j Hs Hj.
    destruct (s =? y)%nat; ring.
Qed.
Lemma class_feature_length c k F x y : length (class_feature c k F x y) = (k * F)%nat.
Proof. apply concat_tab2_length. Qed.
Lemma dot_class_feature c k F x y w : (y < k)%nat -> length w = (k * F)%nat ->
  dot w (class_feature c k F x y) = c * class_score F w x y.
Proof.
  intros Hy Hw. unfold class_feature. rewrite dot_concat_tab2 by auto.
  transitivity (sumn k (fun s => ind (s =? y)%nat * (c * class_score F w x s))).
  - apply sumn_ext. intros s Hs. unfold class_score.
    rewrite <- !sumn_mult_l. apply sumn_ext. intros j Hj. unfold ind.
    destruct (s =? y)%nat; ring.
  - rewrite (sumn_pick k y (fun s => c * class_score F w x s)) by auto. reflexivity.
Qed.

(** sum of class features *)
Lemma vsum_class_features k F (l : list (Qc * (list Qc * nat))) :
  vsum (k * F) (map (fun p => class_feature (fst p) k F (fst (snd p)) (snd (snd p))) l) =
  concat (tab2 k F (fun s j => lsum (map (fun p => if (s =? snd (snd p))%nat then fst p * get1 (fst (snd p)) j else 0) l))).
Proof.
  induction l as [|p l IH]; cbn [map vsum fold_right].
  - rewrite vzero_tab2. f_equal.
  - unfold vsum in IH. rewrite IH. unfold class_feature. rewrite vadd_concat_tab2. reflexivity.
Qed.

Lemma cs_loop_ok k F X Y : forall out, length X = length Y -> mat_ok out -> mrows out = k -> mcols out = F ->
  Forall (fun y => (y < k)%nat) Y -> Forall (fun r => length r = F) X ->
  exists out', cs_loop X Y out = Ok out' /\ mat_ok out' /\ mrows out' = k /\ mcols out' = F /\
    forall s j, (s < k)%nat -> (j < F)%nat -> mget out' s j = mget out s j +
      lsum (map (fun p => if (s =? snd p)%nat then 1 * get1 (fst p) j else 0) (combine X Y)).
Proof.
  revert Y. induction X as [|row X IH]; intros [|y Y] out HL Hok Hr Hc HY HX; try discriminate.
  - exists out. cbn [cs_loop combine map]. repeat (split; auto). intros. change (lsum []) with 0. ring.
  - cbn [cs_loop]. inversion HY; inversion HX; subst.
    destruct (Nat.ltb_spec y (mrows out)); [|lia]. cbn [ensure bind].
    match goal with H : length row = _ |- _ => rewrite H end. rewrite Nat.leb_refl. cbn [ensure bind].
    match goal with |- context [cs_loop X Y ?o] => destruct (IH Y o) as [out' [E [K [R [Cc V]]]]]; auto end.
    { apply mtab_ok. }
    exists out'. rewrite E. split; auto. split; auto. split; auto. split; auto.
    intros s j Hs Hj. rewrite V by auto. rewrite mget_mtab by auto. cbn [combine map fst snd].
    change (lsum (?a :: ?l)) with (a + lsum l). destruct (s =? y)%nat; ring.
Qed.

Lemma map_const_combine {A B C} (g : A * B -> C) (xs : list A) (ys : list B) (c : Qc) :
  map (fun p : Qc * (A * B) => g (snd p)) (map (fun p => (c, p)) (combine xs ys)) = map g (combine xs ys).
Proof. rewrite map_map. reflexivity. Qed.

Lemma combine_in_split {A B} (xs : list A) (ys : list B) p : In p (combine xs ys) -> In (fst p) xs /\ In (snd p) ys.
Proof. destruct p. intro H. split; [eapply in_combine_l|eapply in_combine_r]; eauto. Qed.

Lemma mc_batch_joint_plain m X Y : mc_rescale m = false -> mat_ok X -> mcols X = mc_features m ->
  length Y = mrows X -> Forall (fun y => (y < mc_states m)%nat) Y ->
  exists fs, mapM (fun p => mc_joint_feature m (fst p) (snd p) None) (combine (mdat X) Y) = Ok fs /\
    mc_batch_joint_feature m X Y None = Ok (vsum (mc_size m) fs).
Proof.
  intros Hr [HX1 HX2] Hc HL HY.
  exists (map (fun p => class_feature 1 (mc_states m) (mc_features m) (fst p) (snd p)) (combine (mdat X) Y)).
  split.
  - apply mapM_ok. intros p Hp. apply combine_in_split in Hp. destruct Hp as [Hp1 Hp2].
    rewrite Forall_forall in HX2, HY. apply mc_joint_ok; auto.
    + rewrite HX2 by auto. auto.
    + rewrite Hr. reflexivity.
  - unfold mc_batch_joint_feature. rewrite Hr, HL, Hc, !Nat.eqb_refl. cbn [ensure bind].
    destruct (cs_loop_ok (mc_states m) (mc_features m) (mdat X) Y (mat_zeros (mc_states m) (mc_features m)))
      as [out [E [K [R [C V]]]]]; auto; try congruence.
    { apply mtab_ok. }
    { rewrite <- Hc. exact HX2. }
    rewrite E. cbn [bind]. f_equal.
    rewrite <- (map_map (fun p => (1, p)) (fun p => class_feature (fst p) (mc_states m) (mc_features m) (fst (snd p)) (snd (snd p)))).
    unfold mc_size. rewrite vsum_class_features. unfold ravel. f_equal.
    assert (EM : out = mtab (mc_states m) (mc_features m) (fun s j => lsum (map (fun p => if (s =? snd p)%nat then 1 * get1 (fst p) j else 0) (combine (mdat X) Y)))).
    { apply mat_eq_ext; auto. apply mtab_ok. intros s j Hs Hj. rewrite R in Hs. rewrite C in Hj.
      rewrite V by auto. rewrite mget_mtab by auto. unfold mat_zeros. rewrite mget_mtab by auto. ring. }
    rewrite EM. cbn [mdat mtab]. apply tab2_ext. intros s j _ _. rewrite map_map. reflexivity.
Qed.

(** ** batch inference *)
Lemma mc_batch_scores_rows m X w W F : reshape_auto w (mc_states m) = Ok W -> mcols W = F -> mrows W = mc_states m ->
  W = mtab (mc_states m) F (fun i j => get1 w (i * F + j)) ->
  mat_ok X -> mcols X = F ->
  exists S, mc_batch_scores m X w = Ok S /\ mrows S = mrows X /\
    mdat S = map (fun row => tab1 (mc_states m) (class_score F w row)) (mdat X).
Proof.
  intros E HF HR EW HX HC. unfold mc_batch_scores. rewrite E. cbn [bind].
  rewrite mat_mul_ok by (cbn [mrows mat_T mtab]; congruence).
  eexists. split; [reflexivity|]. split; [reflexivity|]. cbn [mdat mtab].
  rewrite <- (rows_of_mat (fun row => tab1 (mc_states m) (class_score F w row)) X HX).
  unfold tab2. cbn [mcols mat_T mtab]. apply map_ext_in. intros i Hi. apply in_seq in Hi.
  rewrite HR. apply tab1_ext. intros s Hs. unfold class_score.
  rewrite HC. apply sumn_ext. intros j Hj. rewrite mget_T by congruence.
  rewrite EW, mget_mtab by auto. unfold mget, get2, get1. ring.
Qed.

Lemma mc_batch_inference_agrees m X w : mat_ok X -> (0 < mrows X)%nat ->
  mc_batch_inference m X w = mapM (fun x => mc_inference m x w) (mdat X).
Proof.
  intros HX Hpos. assert (HX' := HX). destruct HX' as [HX1 HX2]. rewrite Forall_forall in HX2.
  assert (NE : mdat X <> []). { intro H. rewrite H in HX1. simpl in HX1. lia. }
  unfold mc_batch_inference, mc_inference.
  destruct (reshape_auto_cases w (mc_states m)) as [E|[Hk [HL E]]].
  - unfold mc_batch_scores. rewrite E. cbn [bind]. symmetry. apply mapM_all_err; auto.
    intros x _. unfold mc_scores. rewrite E. reflexivity.
  - destruct (Nat.eq_dec (mcols X) (length w / mc_states m)) as [EC|NC].
    + destruct (mc_batch_scores_rows m X w _ (length w / mc_states m) E) as [S [ES [_ D]]]; auto.
      rewrite ES. cbn [bind]. rewrite D, mapM_map. apply mapM_ext. intros x Hx.
      unfold mc_scores. rewrite E. cbn [bind]. rewrite mat_vec_class; [reflexivity|].
      rewrite HX2; auto.
    + unfold mc_batch_scores. rewrite E. cbn [bind]. unfold mat_mul. cbn [mrows mat_T mtab mcols].
      apply Nat.eqb_neq in NC. rewrite NC. cbn [bind]. symmetry. apply mapM_all_err; auto.
      intros x Hx. unfold mc_scores. rewrite E. cbn [bind]. rewrite mat_vec_err; [reflexivity|].
      cbn [mcols mtab]. rewrite (HX2 x Hx). apply Nat.eqb_neq in NC. auto.
Qed.

(** masks *)
Lemma add_masked_row_ok v : forall mask row rest, length mask = length row ->
  add_masked_row mask row (repeat v (length (filter (fun b : bool => b) mask)) ++ rest) =
    (zipw (fun (b : bool) a => if b then a + v else a) mask row, rest).
Proof.
  induction mask as [|b mask IH]; intros [|a row] rest H; try discriminate; [reflexivity|].
  injection H as H. destruct b; cbn [filter length repeat app add_masked_row zipw];
    rewrite IH by auto; reflexivity.
Qed.
Lemma add_masked_ok (masks : list (list bool)) rows (vs : list Qc) : length masks = length rows -> length vs = length rows ->
  (forall i, (i < length rows)%nat -> length (nth i masks []) = length (nth i rows [])) ->
  add_masked masks rows (concat (zipw (fun mk v => repeat v (length (filter (fun b : bool => b) mk))) masks vs)) =
  zipw (fun mr v => zipw (fun (b : bool) a => if b then a + v else a) (fst mr) (snd mr)) (combine masks rows) vs.
Proof.
  revert rows vs. induction masks as [|mk masks IH]; intros [|r rows] [|v vs] H1 H2 H3; try discriminate; [reflexivity|].
  cbn [zipw concat add_masked combine fst snd].
  rewrite add_masked_row_ok by (apply (H3 O); simpl; lia).
  f_equal. apply IH; [simpl in *; lia..|]. intros i Hi. apply (H3 (S i)). simpl. lia.
Qed.
Definition mask_of (k y : nat) : list bool := map (fun s => negb (s =? y)%nat) (seq 0 k).
Lemma mask_count k y : (y < k)%nat -> length (filter (fun b : bool => b) (mask_of k y)) = (k - 1)%nat.
Proof.
  intro Hy. unfold mask_of.
  assert (G : forall n a, length (filter (fun b : bool => b) (map (fun s => negb (s =? y)%nat) (seq a n))) =
             (if ((a <=? y) && (y <? a + n))%nat then n - 1 else n)%nat).
  { induction n; intro a; [destruct ((a <=? y) && (y <? a + 0))%nat; reflexivity|].
    cbn [seq map filter]. destruct (Nat.eqb_spec a y); cbn [negb].
    - rewrite IHn. destruct (Nat.leb_spec (S a) y); [lia|]. cbn [andb].
      destruct (Nat.leb_spec a y); [|lia]. destruct (Nat.ltb_spec y (a + S n)); [|lia]. cbn [andb]. lia.
    - cbn [length]. rewrite IHn.
      destruct (Nat.leb_spec (S a) y), (Nat.leb_spec a y), (Nat.ltb_spec y (S a + n)), (Nat.ltb_spec y (a + S n));
        cbn [andb]; lia. }
  rewrite G. destruct (Nat.leb_spec 0 y); [|lia]. destruct (Nat.ltb_spec y (0 + k)); [|lia]. reflexivity.
Qed.
Lemma mask_length k y : length (mask_of k y) = k.
Proof. unfold mask_of. rewrite map_length, seq_length. reflexivity. Qed.
Lemma mask_apply k y v f :
  zipw (fun (b : bool) a => if b then a + v else a) (mask_of k y) (tab1 k f) =
  tab1 k (fun t => f t + (if (t =? y)%nat then 0 else v)).
Proof.
  unfold mask_of, tab1. rewrite (zipw_map_seq (fun (b : bool) a => if b then a + v else a)).
  apply map_ext. intro t. destruct (t =? y)%nat; cbn [negb]; ring.
Qed.
Lemma count_true_masks k Y : Forall (fun y => (y < k)%nat) Y ->
  count_true (map (mask_of k) Y) = (length Y * (k - 1))%nat.
Proof.
  unfold count_true. induction 1; [reflexivity|]. cbn [map concat]. rewrite filter_app, app_length.
  rewrite mask_count by auto. rewrite IHForall. simpl. lia.
Qed.
Lemma repeat_app_concat {A} (a : A) n k (l : list nat) : length l = n ->
  repeat a (n * k) = concat (map (fun _ => repeat a k) l).
Proof.
  intro H. subst n. induction l; [reflexivity|]. cbn [map concat length Nat.mul].
  rewrite repeat_app, IHl. reflexivity.
Qed.
Lemma vals_as_masks k Y vs : Forall (fun y => (y < k)%nat) Y -> length vs = length Y ->
  concat (map (fun c : Qc => repeat c (k - 1)) vs) =
  concat (zipw (fun mk v => repeat v (length (filter (fun b : bool => b) mk))) (map (mask_of k) Y) vs).
Proof.
  intros H. revert vs. induction H; intros [|v vs] HL; try discriminate; [reflexivity|].
  cbn [map zipw concat]. rewrite mask_count by auto. rewrite IHForall by (simpl in HL; lia). reflexivity.
Qed.
Lemma zipw_masks_rows k Y (rows : list (list Qc)) vs (g : list Qc -> nat -> Qc) :
  length rows = length Y -> length vs = length Y ->
  zipw (fun mr v => zipw (fun (b : bool) a => if b then a + v else a) (fst mr) (snd mr))
       (combine (map (mask_of k) Y) (map (fun row => tab1 k (g row)) rows)) vs =
  map (fun p => tab1 k (fun t => g (fst (fst p)) t + (if (t =? snd (fst p))%nat then 0 else snd p)))
      (combine (combine rows Y) vs).
Proof.
  revert rows vs. induction Y; intros [|r rows] [|v vs] H1 H2; try discriminate; [reflexivity|].
  cbn [map combine zipw fst snd]. rewrite mask_apply. f_equal. apply IHY; simpl in *; lia.
Qed.

Lemma combine_second_map {A B C} (f : B -> C) (xs : list A) : forall ys : list B, length xs = length ys ->
  combine (combine xs ys) (map f ys) = map (fun p => (p, f (snd p))) (combine xs ys).
Proof.
  induction xs; intros [|y ys] H; try discriminate; [reflexivity|].
  cbn [combine map snd]. f_equal. apply IHxs. simpl in H. lia.
Qed.
Lemma combine_map_r {A B C} (l : list A) (m : list B) (f : A -> C) :
  length l = length m -> combine l (map f l) = map (fun a => (a, f a)) l.
Proof. intros _. clear m. induction l; simpl; congruence. Qed.

Lemma mc_batch_laug_agrees m X Y w : mat_ok X -> mcols X = mc_features m -> length w = mc_size m ->
  length Y = mrows X -> length (mc_cw m) = mc_states m -> Forall (fun y => (y < mc_states m)%nat) Y ->
  (mc_uniform m = true -> forall s, (s < mc_states m)%nat -> get1 (mc_cw m) s = 1) ->
  (0 < mc_states m)%nat ->
  mc_batch_laug m X Y w = mapM (fun p => mc_laug m (fst p) (snd p) w) (combine (mdat X) Y).
Proof.
  intros HX HC Hw HY Hcw HYk Hu Hk. assert (HX' := HX). destruct HX' as [HX1 HX2].
  rewrite Forall_forall in HX2.
  set (F := mc_features m) in *. set (k := mc_states m) in *.
  assert (E := reshape_auto_ok w k F Hk Hw).
  destruct (mc_batch_scores_rows m X w _ F E) as [S [ES [RS D]]]; auto.
  unfold mc_batch_laug. rewrite ES. cbn [bind]. fold k.
  change (map (fun y => map (fun s => negb (s =? y)%nat) (seq 0 k)) Y) with (map (mask_of k) Y).
  (* common price vector *)
  set (cs := map (fun y => if mc_rescale m || mc_uniform m then 1 else get1 (mc_cw m) y) Y).
  assert (Lcs : length cs = length Y) by (unfold cs; rewrite map_length; reflexivity).
  assert (G : add_masked (map (mask_of k) Y) (mdat S)
                (concat (map (fun c : Qc => repeat c (k - 1)) cs)) =
              map (fun p => tab1 k (fun t => class_score F w (fst (fst p)) t + (if (t =? snd (fst p))%nat then 0 else snd p)))
                  (combine (combine (mdat X) Y) cs)).
  { rewrite (vals_as_masks k Y cs) by auto.
    rewrite add_masked_ok.
    - rewrite D. apply zipw_masks_rows; auto. congruence.
    - rewrite map_length, D, map_length. congruence.
    - rewrite D, map_length. congruence.
    - intros i Hi. rewrite D in *. rewrite map_length in Hi.
      rewrite (nth_map_in _ Y i O) by congruence.
      rewrite (nth_map_in _ (mdat X) i []) by auto.
      rewrite mask_length, tab1_length. reflexivity. }
  assert (R : mapM np_argmax (map (fun p => tab1 k (fun t => class_score F w (fst (fst p)) t + (if (t =? snd (fst p))%nat then 0 else snd p)))
                  (combine (combine (mdat X) Y) cs)) =
              mapM (fun p => mc_laug m (fst p) (snd p) w) (combine (mdat X) Y)).
  { rewrite mapM_map.
    assert (EQ : combine (combine (mdat X) Y) cs = map (fun p => (p, if mc_rescale m || mc_uniform m then 1 else get1 (mc_cw m) (snd p))) (combine (mdat X) Y)).
    { unfold cs. apply (combine_second_map (fun y => if mc_rescale m || mc_uniform m then 1 else get1 (mc_cw m) y)). congruence. }
    rewrite EQ, mapM_map. apply mapM_ext. intros p Hp. cbn [fst snd].
    apply combine_in_split in Hp. destruct Hp as [P1 P2]. rewrite Forall_forall in HYk.
    specialize (HYk _ P2). unfold mc_laug.
    rewrite (mc_augmented_ok m (fst p) (snd p) w (if mc_rescale m || mc_uniform m then 1 else get1 (mc_cw m) (snd p))); auto.
    - rewrite HX2; auto.
    - destruct (mc_rescale m); [reflexivity|]. cbn [orb].
      rewrite (index_ok _ _ 0) by congruence. f_equal.
      destruct (mc_uniform m) eqn:U; [|reflexivity]. apply Hu; auto. }
  assert (LS : mrows S = length Y) by congruence.
  destruct (mc_rescale m || mc_uniform m) eqn:B.
  - rewrite LS, Nat.eqb_refl. cbn [ensure bind]. rewrite <- R, <- G. f_equal. f_equal.
    rewrite count_true_masks by auto. unfold cs. rewrite map_map. apply repeat_app_concat. reflexivity.
  - rewrite (mapM_ok _ (get1 (mc_cw m))).
    2:{ intros y Hy. rewrite Forall_forall in HYk. apply index_ok. rewrite Hcw. auto. }
    cbn [bind]. rewrite LS, Nat.eqb_refl. cbn [ensure bind].
    assert (HV : length (concat (map (fun c => repeat c (k - 1)) (map (get1 (mc_cw m)) Y))) = count_true (map (mask_of k) Y)).
    { rewrite count_true_masks by auto. clear. induction Y; [reflexivity|].
      cbn [map concat]. rewrite app_length, repeat_length, IHY. simpl. lia. }
    rewrite HV, Nat.eqb_refl. cbn [ensure bind]. rewrite <- R, <- G. reflexivity.
Qed.

Lemma mc_batch_loss_agrees m Y Y' : length Y = length Y' ->
  mc_batch_loss m Y Y' = mapM (fun p => mc_loss m (fst p) (snd p)) (combine Y Y').
Proof.
  intro H. unfold mc_batch_loss. rewrite H, Nat.eqb_refl. cbn [ensure bind].
  revert Y' H. induction Y; intros [|b Y'] H; try discriminate; [reflexivity|].
  cbn [combine mapM fst snd]. unfold mc_loss at 1. destruct (index (mc_cw m) a) as [c|e]; cbn [bind]; auto.
  rewrite <- IHY by (simpl in H; lia). destruct (mapM (index (mc_cw m)) Y); reflexivity.
Qed.

From Coq Require Import ZArith.
From Verif Require Import Model.Unstructured Model.Instances Spec.ClassSpec Spec.TaskSpec Spec.TaskInstances
  Proofs.Arrays Proofs.LossProofs Proofs.CRFProofs Proofs.UnstructuredProofs Proofs.LearnerProofs.

(** ** MultiClassClf with rescale_C: batch joint feature *)
Lemma masked_sum (cw : list Qc) l j : forall (X : list (list Qc)) (Y Yt : list nat), length X = length Y -> length Yt = length Y ->
  lsum (zipw (fun row c => get1 row j * c)
     (map snd (filter fst (combine (map (fun y => (y =? l)%nat) Y) X)))
     (map (get1 cw) (map snd (filter fst (combine (map (fun y => (y =? l)%nat) Y) Yt))))) =
  lsum (map (fun p => if (l =? snd (snd p))%nat then fst p * get1 (fst (snd p)) j else 0)
            (combine (map (get1 cw) Yt) (combine X Y))).
Proof.
  induction X as [|x X IH]; intros [|y Y] [|t Yt] H1 H2; try discriminate; [reflexivity|].
  cbn [map combine filter fst snd]. rewrite (Nat.eqb_sym l y).
  assert (E := IH Y Yt ltac:(simpl in *; lia) ltac:(simpl in *; lia)).
  destruct (y =? l)%nat; cbn [map zipw snd fst]; repeat change (lsum (?a :: ?r)) with (a + lsum r); rewrite E; ring.
Qed.
Lemma masked_ok {A} mask (l : list A) : length mask = length l -> masked mask l = Ok (map snd (filter fst (combine mask l))).
Proof. intro H. unfold masked. rewrite H, Nat.eqb_refl. reflexivity. Qed.
Lemma in_masked {A} mask (l : list A) a : In a (map snd (filter fst (combine mask l))) -> In a l.
Proof.
  intro H. apply in_map_iff in H. destruct H as [[b a'] [<- H]]. apply filter_In in H.
  destruct H as [H _]. eapply in_combine_r; eauto.
Qed.

Lemma mc_class_sum_ok m X Y Yt l : mat_ok X -> mcols X = mc_features m -> length Y = mrows X ->
  length Yt = length Y -> Forall (fun t => (t < length (mc_cw m))%nat) Yt ->
  mc_class_sum m X Y Yt l = Ok (tab1 (mc_features m) (fun j =>
    lsum (map (fun p => if (l =? snd (snd p))%nat then fst p * get1 (fst (snd p)) j else 0)
              (combine (map (get1 (mc_cw m)) Yt) (combine (mdat X) Y))))).
Proof.
  intros [HX1 HX2] HC HY HT Hc. unfold mc_class_sum.
  rewrite masked_ok by (rewrite map_length; auto). cbn [bind].
  rewrite (mapM_ok _ (get1 (mc_cw m))).
  2:{ intros t Ht. apply in_masked in Ht. rewrite Forall_forall in Hc. apply index_ok. auto. }
  cbn [bind]. rewrite masked_ok by (rewrite map_length; congruence). cbn [bind].
  unfold bcast_row. rewrite tab1_length, HC, Nat.eqb_refl. f_equal. apply tab1_ext. intros j _.
  apply masked_sum; congruence.
Qed.

Lemma mc_batch_joint_rescale m X Y Yt : mc_rescale m = true -> mat_ok X -> mcols X = mc_features m ->
  length Y = mrows X -> length Yt = length Y -> Forall (fun y => (y < mc_states m)%nat) Y ->
  Forall (fun t => (t < length (mc_cw m))%nat) Yt ->
  exists fs, mapM (fun p => mc_joint_feature m (fst (fst p)) (snd (fst p)) (Some (snd p))) (combine (combine (mdat X) Y) Yt) = Ok fs /\
    mc_batch_joint_feature m X Y (Some Yt) = Ok (vsum (mc_size m) fs).
Proof.
  intros Hr HX HC HL HT HY Hc. assert (HX' := HX). destruct HX' as [HX1 HX2].
  exists (map (fun p => class_feature (get1 (mc_cw m) (snd p)) (mc_states m) (mc_features m) (fst (fst p)) (snd (fst p)))
              (combine (combine (mdat X) Y) Yt)).
  split.
  - apply mapM_ok. intros p Hp. apply combine_in_split in Hp. destruct Hp as [Hp1 Hp2].
    apply combine_in_split in Hp1. destruct Hp1 as [Hp1 Hp3].
    rewrite Forall_forall in HX2, HY, Hc. apply mc_joint_ok; auto.
    + rewrite HX2 by auto. auto.
    + rewrite Hr. exists (snd p). split; auto. apply index_ok. auto.
  - unfold mc_batch_joint_feature. rewrite Hr.
    rewrite (mapM_ok _ (fun l => tab1 (mc_features m) (fun j =>
      lsum (map (fun p => if (l =? snd (snd p))%nat then fst p * get1 (fst (snd p)) j else 0)
              (combine (map (get1 (mc_cw m)) Yt) (combine (mdat X) Y)))))).
    2:{ intros l _. apply mc_class_sum_ok; auto. }
    cbn [bind]. f_equal.
    unfold mc_size.
    transitivity (vsum (mc_states m * mc_features m)
      (map (fun p => class_feature (fst p) (mc_states m) (mc_features m) (fst (snd p)) (snd (snd p)))
           (combine (map (get1 (mc_cw m)) Yt) (combine (mdat X) Y)))).
    + rewrite vsum_class_features. reflexivity.
    + f_equal. clear. generalize (combine (mdat X) Y) as l. induction Yt; intros [|p l]; try reflexivity.
      cbn [map combine fst snd]. f_equal. apply IHYt.
Qed.

(** ** MultiClassClf implements its task *)
Lemma mc_implements m x y : mc_rescale m = false -> length x = mc_features m -> (y < mc_states m)%nat ->
  length (mc_cw m) = mc_states m ->
  implements (mc_smodel m) (mc_task (mc_states m) (mc_features m) (get1 (mc_cw m))) (mc_size m) x y.
Proof.
  intros Hr Hx Hy Hc. split; [exact Hy|]. split. { cbn [t_loss mc_task]. rewrite Nat.eqb_refl. reflexivity. }
  intros y' Hy'. cbn [t_label mc_task] in Hy'. cbn [t_feat mc_task mc_smodel sm_joint sm_tuple sm_loss sm_rescale t_loss].
  split. { apply class_feature_length. } split.
  - apply mc_joint_ok; auto. rewrite Hr. reflexivity.
  - unfold mc_loss. rewrite (index_ok _ _ 0) by congruence. cbn [bind]. f_equal.
    destruct (Nat.eqb_spec y y'); cbn [negb ind]; [ring|]. unfold get1. ring.
Qed.
Lemma mc_exact_laug m x y w : mc_rescale m = false -> length x = mc_features m -> (y < mc_states m)%nat ->
  length (mc_cw m) = mc_states m -> length w = mc_size m ->
  exact_laug (mc_smodel m) (mc_task (mc_states m) (mc_features m) (get1 (mc_cw m))) w x y.
Proof.
  intros Hr Hx Hy Hc Hw.
  destruct (mc_laug_exact m x y w (get1 (mc_cw m) y)) as [s [E [_ [H1 [H2 _]]]]]; auto; try lia.
  { rewrite Hr. apply index_ok. congruence. }
  exists s. split; [exact E|]. split; [exact H1|]. intros y' Hy'. cbn [t_label mc_task] in Hy'.
  cbn [t_feat t_loss mc_task]. rewrite !dot_class_feature by auto.
  specialize (H2 y' Hy'). cbv beta in H2. rewrite (Nat.eqb_sym y y'), (Nat.eqb_sym y s). 
  replace (1 * class_score (mc_features m) w x y') with (class_score (mc_features m) w x y') by ring.
  replace (1 * class_score (mc_features m) w x s) with (class_score (mc_features m) w x s) by ring.
  exact H2.
Qed.
Lemma mc_exact_inference m c x w : length x = mc_features m -> (0 < mc_states m)%nat -> length w = mc_size m ->
  exact_inference (mc_smodel m) (mc_task (mc_states m) (mc_features m) c) w x.
Proof.
  intros Hx Hk Hw. destruct (mc_inference_exact m x w Hk Hw Hx) as [s [E [_ [H1 [H2 _]]]]].
  exists s. split; [exact E|]. split; [exact H1|]. intros y' Hy'. cbn [t_label mc_task] in Hy'.
  cbn [t_feat mc_task]. rewrite !dot_class_feature by auto.
  specialize (H2 y' Hy'). rewrite !Qcmult_1_l. exact H2.
Qed.

(** ** rescale_C *)
Lemma mc_rescaled_implements m x y : mc_rescale m = true -> length x = mc_features m -> (y < mc_states m)%nat ->
  length (mc_cw m) = mc_states m ->
  implements (mc_smodel m) (mc_rescaled_task (mc_states m) (mc_features m) (get1 (mc_cw m)) y) (mc_size m) x y.
Proof.
  intros Hr Hx Hy Hc. split; [exact Hy|]. split. { cbn [t_loss mc_rescaled_task]. rewrite Nat.eqb_refl. reflexivity. }
  intros y' Hy'. cbn [t_label mc_rescaled_task] in Hy'. cbn [t_feat mc_rescaled_task mc_smodel sm_joint sm_tuple sm_loss sm_rescale t_loss].
  split. { apply class_feature_length. } split.
  - rewrite Hr. apply mc_joint_ok; auto. rewrite Hr. exists y. split; auto. apply index_ok. congruence.
  - unfold mc_loss. rewrite (index_ok _ _ 0) by congruence. cbn [bind]. f_equal.
    destruct (Nat.eqb_spec y y'); cbn [negb ind]; [ring|]. unfold get1. ring.
Qed.
Lemma class_feature_scale c k F x y : class_feature c k F x y = vscale c (class_feature 1 k F x y).
Proof.
  unfold class_feature, vscale. rewrite concat_map. f_equal. unfold tab2. rewrite map_map.
  apply map_ext. intro s. unfold tab1. rewrite map_map. apply map_ext. intro j.
  destruct (s =? y)%nat; ring.
Qed.
Lemma Qcmax_scale c a : 0 <= c -> Qcmax (c * a) 0 = c * Qcmax a 0.
Proof.
  intro H. unfold Qcmax. destruct (Qcleb_spec (c * a) 0) as [A|A], (Qcleb_spec a 0) as [B|B]; try ring.
  - apply Qcle_antisym; [|exact A]. replace 0 with (c * 0) by ring.
    rewrite !(Qcmult_comm c). apply Qcmult_le_compat_r; auto. apply Qclt_le_weak; auto.
  - exfalso. assert (0 <= c * (- a)) by (apply Qcmult_nonneg; auto; qclra). 
    replace (c * - a) with (- (c * a)) in H0 by ring. qclra.
Qed.
Lemma vsub_scale c a b : vsub (vscale c a) (vscale c b) = vscale c (vsub a b).
Proof.
  revert b. induction a; intros [|y b]; try reflexivity. unfold vsub, vscale in *. cbn [map zipw].
  rewrite IHa. f_equal. ring.
Qed.

Lemma mc_rescale_constraint m x y w : mc_rescale m = true -> length x = mc_features m -> (y < mc_states m)%nat ->
  length (mc_cw m) = mc_states m -> length w = mc_size m -> 0 <= get1 (mc_cw m) y ->
  let m1 := MC (mc_states m) (mc_features m) (repeat 1 (mc_states m)) true false in
  exists yh delta s,
    find_constraint (mc_smodel m1) x y w None true = Ok (yh, delta, s, if (y =? yh)%nat then 0 else 1) /\
    is_hinge (mc_task (mc_states m) (mc_features m) (fun _ => 1)) w x y s /\
    find_constraint (mc_smodel m) x y w None true =
      Ok (yh, vscale (get1 (mc_cw m) y) delta, get1 (mc_cw m) y * s, if (y =? yh)%nat then 0 else get1 (mc_cw m) y) /\
    is_hinge (mc_rescaled_task (mc_states m) (mc_features m) (get1 (mc_cw m)) y) w x y (get1 (mc_cw m) y * s).
Proof.
  intros Hr Hx Hy Hc Hw Hp m1. set (c := get1 (mc_cw m) y) in *.
  assert (H1 : forall t, (t < mc_states m)%nat -> get1 (repeat 1 (mc_states m)) t = 1).
  { intros t Ht. unfold get1. apply nth_repeat_lt || (rewrite nth_indep with (d' := 1) by (rewrite repeat_length; auto); apply nth_repeat). }
  destruct (mc_laug_exact m x y w 1) as [yh [E [_ [L [M _]]]]]; auto; try lia. { rewrite Hr. reflexivity. }
  assert (E1 : mc_laug m1 x y w = Ok yh).
  { rewrite <- E. unfold mc_laug, mc_augmented_scores, mc_scores. cbn [mc_states mc_rescale mc_cw m1]. rewrite Hr.
    destruct (reshape_auto w (mc_states m)); cbn [bind]; auto. destruct (mat_vec a x); cbn [bind]; auto.
    rewrite (index_ok _ _ 0) by (rewrite repeat_length; auto). cbn [bind].
    change (nth y (repeat 1 (mc_states m)) 0) with (get1 (repeat 1 (mc_states m)) y). rewrite H1; auto. }
  assert (I1 : implements (mc_smodel m1) (mc_task (mc_states m) (mc_features m) (fun _ => 1)) (mc_size m) x y).
  { destruct (mc_implements m1 x y) as [A [B D]]; auto. { cbn. apply repeat_length. }
    split; [exact A|]. split. { cbn [t_loss mc_task]. rewrite Nat.eqb_refl. reflexivity. }
    intros y' Hy'. destruct (D y' Hy') as [D1 [D2 D3]]. split; [exact D1|]. split; [exact D2|].
    rewrite D3. cbn [t_loss mc_task]. destruct (y =? y')%nat; auto. cbn [m1 mc_cw]. rewrite H1; auto. }
  assert (I2 := mc_rescaled_implements m x y Hr Hx Hy Hc).
  set (T1 := mc_task (mc_states m) (mc_features m) (fun _ => 1)) in *.
  set (T2 := mc_rescaled_task (mc_states m) (mc_features m) (get1 (mc_cw m)) y) in *.
  assert (MM : forall y', (y' < mc_states m)%nat -> margin T2 w x y y' = c * margin T1 w x y y').
  { intros y' Hy'. unfold margin. cbn [T1 T2 t_loss t_feat mc_task mc_rescaled_task].
    rewrite !dot_class_feature by auto. fold c. destruct (y =? y')%nat; ring. }
  assert (X1 : exact_laug (mc_smodel m1) T1 w x y).
  { exists yh. split; [exact E1|]. split; [exact L|]. intros y' Hy'. cbn [T1 t_label mc_task] in Hy'.
    specialize (M y' Hy'). cbv beta in M. cbn [T1 t_feat t_loss mc_task]. rewrite !dot_class_feature by auto.
    rewrite (Nat.eqb_sym y y'), (Nat.eqb_sym y yh). clear -M.
    replace (1 * class_score (mc_features m) w x y') with (class_score (mc_features m) w x y') by ring.
    replace (1 * class_score (mc_features m) w x yh) with (class_score (mc_features m) w x yh) by ring. exact M. }
  destruct (find_constraint_hinge (mc_smodel m1) T1 (mc_size m) x y w I1 Hw X1) as [yh' [s [F1 [G1 [_ [S1 [P1 Q1]]]]]]].
  cbn [mc_smodel sm_laug] in G1. rewrite E1 in G1. injection G1 as <-.
  exists yh, (vsub (t_feat T1 x y) (t_feat T1 x yh)), s. split; [exact F1|]. split; [exact Q1|].
  assert (SE : s = margin T1 w x y yh).
  { rewrite S1. rewrite margin_sub; auto. cbn [T1 t_feat mc_task]. rewrite !class_feature_length. reflexivity. }
  split.
  - rewrite (find_constraint_value (mc_smodel m) T2 (mc_size m) x y w None yh); auto.
    cbn [T1 T2 t_feat t_loss mc_task mc_rescaled_task]. fold c.
    rewrite (class_feature_scale c _ _ x y), (class_feature_scale c _ _ x yh), vsub_scale.
    rewrite MM by exact L. rewrite Qcmax_scale by auto. rewrite <- SE.
    replace (Qcmax s 0) with s; [reflexivity|]. unfold Qcmax. destruct (Qcleb_spec s 0); auto. apply Qcle_antisym; auto.
  - destruct Q1 as [_ Q1]. split.
    + exists yh. split; [exact L|]. rewrite MM by exact L. rewrite SE. reflexivity.
    + intros y' Hy'. cbn [T2 t_label mc_rescaled_task] in Hy'. rewrite MM by exact Hy'.
      specialize (Q1 y' Hy'). assert (0 <= c * (s - margin T1 w x y y')) by (apply Qcmult_nonneg; auto; qclra).
      replace (c * (s - margin T1 w x y y')) with (c * s - c * margin T1 w x y y') in H by ring. 
      set (u := c * s) in *. set (v := c * margin T1 w x y y') in *. clearbody u v. qclra.
Qed.

Lemma mc_rescale_objective m w Xs Ys C v : mc_rescale m = true -> length (mc_cw m) = mc_states m ->
  length w = mc_size m -> length Xs = length Ys -> Xs <> [] ->
  Forall (fun x => length x = mc_features m) Xs -> Forall (fun y => (y < mc_states m)%nat) Ys ->
  (forall s, (s < mc_states m)%nat -> 0 <= get1 (mc_cw m) s) ->
  exists hs, Forall2 (fun p h => is_hinge (mc_task (mc_states m) (mc_features m) (fun _ => 1)) w (fst p) (snd p) h) (combine Xs Ys) hs /\
    objective_primal (mc_smodel m) w Xs Ys C v =
      Ok (lsum (zipw (fun y h => C * get1 (mc_cw m) y * h) Ys hs) + normsq w / (1 + 1)).
Proof.
  intros Hr Hc Hw HL HN HX HY Hp. rewrite Forall_forall in HX, HY.
  assert (G : exists hs cs, Forall2 (fun p h => is_hinge (mc_task (mc_states m) (mc_features m) (fun _ => 1)) w (fst p) (snd p) h) (combine Xs Ys) hs /\
     mapM (fun p => find_constraint (mc_smodel m) (fst p) (snd p) w None true) (combine Xs Ys) = Ok cs /\
     length cs = length Ys /\
     map (fun c => snd (fst c)) cs = zipw (fun y h => get1 (mc_cw m) y * h) Ys hs).
  { clear HN. revert Ys HL HY. induction Xs as [|x Xs IH]; intros [|y Ys] HL HY; try discriminate.
    - exists [], []. cbn [combine mapM]. repeat split; auto.
    - destruct (IH ltac:(intros; apply HX; simpl; auto) Ys ltac:(simpl in HL; lia) ltac:(intros; apply HY; simpl; auto))
        as [hs [cs [F [E [L D]]]]].
      destruct (mc_rescale_constraint m x y w Hr) as [yh [delta [s [_ [Q [F1 _]]]]]]; auto.
      { apply HX; simpl; auto. } { apply HY; simpl; auto. } { apply Hp, HY; simpl; auto. }
      exists (s :: hs). eexists. cbn [combine mapM fst snd]. rewrite F1. cbn [bind]. rewrite E. cbn [bind].
      split. { constructor; auto. } split; [reflexivity|]. split; [simpl; congruence|].
      cbn [map zipw fst snd]. f_equal. exact D. }
  destruct G as [hs [cs [F [E [L D]]]]]. exists hs. split; auto.
  assert (V : objective_primal (mc_smodel m) w Xs Ys C v = objective_primal (mc_smodel m) w Xs Ys C OneSlack).
  { destruct v; auto. apply objective_variants. }
  rewrite V. unfold objective_primal. rewrite E. cbn [bind].
  assert (length cs <> O). { rewrite L. destruct Xs, Ys; simpl in *; congruence || lia. }
  destruct (Nat.eqb_spec (length cs) 0); [contradiction|]. cbn [negb ensure bind].
  assert (P := slacks_nonneg _ w _ cs E). rewrite D in *.
  f_equal. f_equal.
  replace (Qcmax (lsum (zipw (fun y h => get1 (mc_cw m) y * h) Ys hs)) 0) with (lsum (zipw (fun y h => get1 (mc_cw m) y * h) Ys hs)).
  - generalize Ys. clear. induction hs; intros [|y Ys]; cbn [zipw]; try (change (lsum []) with 0; ring).
    change (lsum (?a :: ?r)) with (a + lsum r). rewrite <- IHhs. change (lsum (?a :: ?r)) with (a + lsum r). ring.
  - apply lsum_nonneg' in P. unfold Qcmax. match goal with |- ?a = _ => destruct (Qcleb_spec a 0) as [B|B]; auto end.
    apply Qcle_antisym; auto.
Qed.

(** ** BinaryClf *)
Lemma bc_joint_ok x y : y = 1%Z \/ y = (-1)%Z -> bc_joint_feature x y = Ok (t_feat bc_task x y).
Proof.
  intro H. unfold bc_joint_feature. destruct H as [-> | ->]; cbn [Z.eqb Pos.eqb orb ensure bind t_feat bc_task]; apply (f_equal Ok);
    unfold vscale; apply map_ext; intro a; unfold Qcdiv; ring.
Qed.
Lemma bc_joint_rejects x y : y <> 1%Z -> y <> (-1)%Z -> bc_joint_feature x y = Err ValueError.
Proof.
  intros H1 H2. unfold bc_joint_feature. apply Z.eqb_neq in H1, H2.
  change (match y with | (-1)%Z => true | _ => false end) with (y =? -1)%Z in *. rewrite H1, H2. reflexivity.
Qed.
Lemma bc_score x y w : dot w (t_feat bc_task x y) = ofZ y * dot x w / (1 + 1).
Proof. cbn [t_feat bc_task]. rewrite dot_vscale_r, (dot_comm w x). unfold Qcdiv. ring. Qed.

Lemma ofZ_1 : ofZ 1 = 1. Proof. apply Qc_is_canon. reflexivity. Qed.
Lemma ofZ_m1 : ofZ (-1) = - (1). Proof. apply Qc_is_canon. reflexivity. Qed.
Lemma half_lra (a b : Qc) : a <= b -> a / (1 + 1) <= b / (1 + 1).
Proof. intro H. unfold Qcdiv. apply Qcmult_le_compat_r; auto. discriminate. Qed.
Lemma half_sum (a : Qc) : a = a / (1 + 1) + a / (1 + 1).
Proof. field. discriminate. Qed.

Lemma bc_implements d x y : length x = d -> y = 1%Z \/ y = (-1)%Z ->
  implements (bc_smodel d) bc_task d x y.
Proof.
  intros Hx Hy. split; [exact Hy|]. split. { cbn [t_loss bc_task]. rewrite Z.eqb_refl. reflexivity. }
  intros y' Hy'. cbn [t_label bc_task] in Hy'. split. { cbn [t_feat bc_task]. rewrite vscale_length. auto. }
  split.
  - cbn [bc_smodel sm_joint]. apply bc_joint_ok. auto.
  - cbn [bc_smodel sm_tuple sm_loss t_loss bc_task]. unfold bc_loss. destruct (y =? y')%Z; reflexivity.
Qed.
Lemma bc_exact_inference d x w : length x = d -> length w = d ->
  exact_inference (bc_smodel d) bc_task w x.
Proof.
  intros Hx Hw. cbn [bc_smodel sm_inference]. unfold exact_inference. cbn [bc_smodel sm_inference]. unfold bc_inference.
  rewrite np_dot_ok by congruence. cbn [bind]. exists (bc_decide (dot x w)). split; auto.
  unfold bc_decide. destruct (Qcleb_spec 0 (dot x w)) as [H|H].
  - split; [left; auto|]. intros y' [-> | ->]; rewrite !bc_score, ?ofZ_1, ?ofZ_m1; apply half_lra.
    + apply Qcle_refl.
    + replace (- (1) * dot x w) with (- dot x w) by ring. rewrite Qcmult_1_l. qclra.
  - split; [right; auto|]. intros y' [-> | ->]; rewrite !bc_score, ?ofZ_1, ?ofZ_m1; apply half_lra.
    + replace (- (1) * dot x w) with (- dot x w) by ring. rewrite Qcmult_1_l. qclra.
    + apply Qcle_refl.
Qed.
Lemma bc_exact_laug d x y w : length x = d -> length w = d -> y = 1%Z \/ y = (-1)%Z -> dot x w <> ofZ y ->
  exact_laug (bc_smodel d) bc_task w x y.
Proof.
  intros Hx Hw Hy Hd. unfold exact_laug. cbn [bc_smodel sm_laug]. unfold bc_laug.
  rewrite np_dot_ok by congruence. cbn [bind]. exists (np_sign (dot x w - ofZ y)). split; auto.
  set (q := dot x w) in *. unfold np_sign.
  assert (S : forall y' , dot w (t_feat bc_task x y') = ofZ y' * q / (1 + 1)) by (intros; apply bc_score).
  destruct (Qcltb_spec 0 (q - ofZ y)) as [A|A]; [|destruct (Qcltb_spec (q - ofZ y) 0) as [B|B]].
  - split; [left; auto|]. intros y' Hy'. rewrite !S. clear S. cbn [t_loss bc_task].
    assert (Q := half_sum q).
    destruct Hy as [-> | ->], Hy' as [-> | ->]; cbn [Z.eqb Pos.eqb]; rewrite ?ofZ_1, ?ofZ_m1 in *;
      replace (1 * q / (1 + 1)) with (q / (1 + 1)) by (unfold Qcdiv; ring);
      try replace (- (1) * q / (1 + 1)) with (- (q / (1 + 1))) by (unfold Qcdiv; ring);
      set (z := q / (1 + 1)) in *; clearbody z; qclra.
  - split; [right; auto|]. intros y' Hy'. rewrite !S. clear S. cbn [t_loss bc_task].
    assert (Q := half_sum q).
    destruct Hy as [-> | ->], Hy' as [-> | ->]; cbn [Z.eqb Pos.eqb]; rewrite ?ofZ_1, ?ofZ_m1 in *;
      try replace (1 * q / (1 + 1)) with (q / (1 + 1)) by (unfold Qcdiv; ring);
      try replace (- (1) * q / (1 + 1)) with (- (q / (1 + 1))) by (unfold Qcdiv; ring);
      set (z := q / (1 + 1)) in *; clearbody z; qclra.
  - exfalso. apply Hd. apply Qcle_antisym; qclra.
Qed.

Lemma bc_laug_tie d x y w : length x = d -> length w = d -> y = 1%Z \/ y = (-1)%Z -> dot x w = ofZ y ->
  bc_laug x y w = Ok 0%Z /\ find_constraint (bc_smodel d) x y w None true = Err ValueError /\
  is_hinge bc_task w x y 0.
Proof.
  intros Hx Hw Hy Hd.
  assert (E : bc_laug x y w = Ok 0%Z).
  { unfold bc_laug. rewrite np_dot_ok by congruence. cbn [bind]. rewrite Hd.
    replace (ofZ y - ofZ y) with 0 by ring. reflexivity. }
  split; auto. split.
  - unfold find_constraint. cbn [bc_smodel sm_laug]. rewrite E. reflexivity.
  - split.
    + exists y. split; [exact Hy|]. apply margin_self. cbn [t_loss bc_task]. rewrite Z.eqb_refl. reflexivity.
    + intros y' Hy'. unfold margin. rewrite !bc_score, Hd. cbn [t_loss bc_task].
      destruct Hy as [-> | ->], Hy' as [-> | ->]; cbn [Z.eqb Pos.eqb]; rewrite ?ofZ_1, ?ofZ_m1 in *; discriminate.
Qed.

(** batch versions *)
Lemma bc_mat_vec_rows X w : mat_ok X -> mcols X = length w ->
  mat_vec X w = Ok (map (fun x => dot x w) (mdat X)).
Proof.
  intros HX HC. rewrite mat_vec_ok by auto. f_equal. rewrite <- (rows_of_mat (fun x => dot x w) X HX).
  unfold tab1. apply map_ext_in. intros i Hi. apply in_seq in Hi. destruct HX as [H1 H2].
  rewrite dot_get. 
  - assert (L : length (nth i (mdat X) []) = mcols X).
    { rewrite Forall_forall in H2. apply H2. apply nth_In. lia. }
    rewrite L. apply sumn_ext. intros j Hj. reflexivity.
  - rewrite Forall_forall in H2. rewrite H2 by (apply nth_In; lia). auto.
Qed.
Lemma bc_batch_agrees X Y w : mat_ok X -> mcols X = length w -> length Y = mrows X ->
  bc_batch_inference X w = mapM (fun x => bc_inference x w) (mdat X) /\
  bc_batch_laug X Y w = mapM (fun p => bc_laug (fst p) (snd p) w) (combine (mdat X) Y).
Proof.
  intros HX HC HY. assert (HX' := HX). destruct HX' as [H1 H2]. rewrite Forall_forall in H2. split.
  - unfold bc_batch_inference. rewrite bc_mat_vec_rows by auto. cbn [bind].
    symmetry. rewrite (mapM_ok _ (fun x => bc_decide (dot x w))).
    + rewrite map_map. reflexivity.
    + intros x Hx. unfold bc_inference. rewrite np_dot_ok; [reflexivity|]. rewrite H2; auto.
  - unfold bc_batch_laug. rewrite bc_mat_vec_rows by auto. cbn [bind]. rewrite map_length, H1, HY, Nat.eqb_refl. cbn [ensure bind].
    symmetry. rewrite (mapM_ok _ (fun p => np_sign (dot (fst p) w - ofZ (snd p)))).
    + f_equal. rewrite <- H1 in HY. revert Y HY. generalize (mdat X) as xs. clear. induction xs; intros [|y Y] H; try discriminate; [reflexivity|].
      cbn [combine map zipw fst snd]. f_equal. apply IHxs. simpl in H. lia.
    + intros p Hp. apply combine_in_split in Hp. unfold bc_laug. rewrite np_dot_ok; [reflexivity|]. rewrite H2; tauto.
Qed.
Lemma get1_vsum d fs j : (forall f, In f fs -> length f = d) -> get1 (vsum d fs) j = lsum (map (fun f => get1 f j) fs).
Proof.
  intro H. induction fs as [|f fs IH]; cbn [vsum fold_right map].
  - apply get1_vzero.
  - assert (L : length (fold_right vadd (vzero d) fs) = d).
    { clear IH. assert (forall g, In g fs -> length g = d) by (intros; apply H; simpl; auto). clear H.
      induction fs as [|g fs IH]; cbn [fold_right]; [apply vzero_length|].
      rewrite vadd_length; [apply H0; simpl; auto|]. rewrite IH; [apply H0; simpl; auto|]. intros; apply H0; simpl; auto. }
    rewrite get1_vadd. 2:{ rewrite L. apply H. simpl; auto. }
    change (fold_right vadd (vzero d) fs) with (vsum d fs).
    rewrite IH by (intros; apply H; simpl; auto). reflexivity.
Qed.
Lemma vsum_length d fs : (forall f, In f fs -> length f = d) -> length (vsum d fs) = d.
Proof.
  intro H. unfold vsum. induction fs as [|g fs IH]; cbn [fold_right]; [apply vzero_length|].
  rewrite vadd_length; [apply H; simpl; auto|]. rewrite IH; [apply H; simpl; auto|]. intros; apply H; simpl; auto.
Qed.
Lemma bc_batch_joint X Y : mat_ok X -> length Y = mrows X -> Forall (fun y => y = 1%Z \/ y = (-1)%Z) Y ->
  exists fs, mapM (fun p => bc_joint_feature (fst p) (snd p)) (combine (mdat X) Y) = Ok fs /\
    bc_batch_joint_feature X Y = Ok (vsum (mcols X) fs).
Proof.
  intros [H1 H2] HY HF. rewrite Forall_forall in H2, HF.
  exists (map (fun p => t_feat bc_task (fst p) (snd p)) (combine (mdat X) Y)). split.
  - apply mapM_ok. intros p Hp. apply combine_in_split in Hp. apply bc_joint_ok. apply HF. tauto.
  - unfold bc_batch_joint_feature. rewrite HY, Nat.eqb_refl. cbn [ensure bind]. f_equal.
    assert (LF : forall f, In f (map (fun p => t_feat bc_task (fst p) (snd p)) (combine (mdat X) Y)) -> length f = mcols X).
    { intros f Hf. apply in_map_iff in Hf. destruct Hf as [p [<- Hp]]. apply combine_in_split in Hp.
      cbn [t_feat bc_task]. rewrite vscale_length. apply H2. tauto. }
    apply vec_ext. { rewrite tab1_length, vsum_length; auto. }
    intros j Hj. rewrite tab1_length in Hj. rewrite get1_tab1 by auto. rewrite get1_vsum by auto.
    rewrite map_map. rewrite (lsum_map_sumn ([], 0%Z)). rewrite combine_length.
    replace (Nat.min (length (mdat X)) (length Y)) with (mrows X) by lia.
    apply sumn_ext. intros i Hi. rewrite combine_nth by congruence. cbn [fst snd t_feat bc_task].
    rewrite get1_vscale. unfold mget, get2, get1. unfold Qcdiv. ring.
Qed.

(** the batch path does not check labels: the tie costs half a unit of slack *)
Lemma bc_batch_tie d x y w : length x = d -> length w = d -> y = 1%Z \/ y = (-1)%Z -> dot x w = ofZ y ->
  let X := Mat 1 d [x] in
  exists f f0, bc_batch_laug X [y] w = Ok [0%Z] /\
    bc_batch_joint_feature X [y] = Ok f /\ bc_batch_joint_feature X [0%Z] = Ok f0 /\
    bc_batch_loss [y] [0%Z] = Ok [1] /\
    1 - dot w (vsub f f0) = / (1 + 1) /\ is_hinge bc_task w x y 0.
Proof.
  intros Hx Hw Hy Hd X.
  assert (OX : mat_ok X) by (split; [reflexivity|constructor; auto]).
  destruct (bc_batch_agrees X [y] w OX) as [_ E]; auto.
  destruct (bc_laug_tie d x y w Hx Hw Hy Hd) as [E1 [_ Q]].
  exists (t_feat bc_task x y), (vzero d). split.
  { rewrite E. cbn [X mdat combine mapM fst snd]. rewrite E1. reflexivity. }
  split.
  { destruct (bc_batch_joint X [y] OX eq_refl) as [fs [F1 F2]]. { constructor; auto. }
    cbn [X mdat combine mapM fst snd] in F1. rewrite bc_joint_ok in F1 by auto. cbn [bind] in F1. injection F1 as <-.
    rewrite F2. f_equal. cbn [vsum fold_right X mcols].
    apply vec_ext. { rewrite vadd_length; [reflexivity|]. rewrite vzero_length. cbn [t_feat bc_task]. rewrite vscale_length. auto. }
    intros j _. rewrite get1_vadd, get1_vzero. apply Qcplus_0_r. rewrite vzero_length. cbn [t_feat bc_task]. rewrite vscale_length. auto. }
  split.
  { unfold bc_batch_joint_feature. cbn [X mrows length Nat.eqb ensure bind mcols]. f_equal.
    apply vec_ext. { rewrite tab1_length, vzero_length. reflexivity. }
    intros j Hj. rewrite tab1_length in Hj. rewrite get1_tab1, get1_vzero by auto.
    apply sumn_zero. intros i Hi. destruct i; [|lia]. cbn [nth]. replace (ofZ 0) with 0. unfold Qcdiv. ring.
    apply Qc_is_canon. reflexivity. }
  split.
  { destruct Hy as [-> | ->]; reflexivity. }
  split; auto.
  rewrite dot_vsub_r. 2:{ rewrite vzero_length. cbn [t_feat bc_task]. rewrite vscale_length. auto. }
  rewrite dot_vzero_r, bc_score, Hd.
  destruct Hy as [-> | ->]; rewrite ?ofZ_1, ?ofZ_m1; field; discriminate.
Qed.

Lemma mc_batch_unknown_class m x y : mc_rescale m = false -> length x = mc_features m -> (mc_states m <= y)%nat ->
  mc_joint_feature m x y None = Err IndexError /\
  mc_batch_joint_feature m (Mat 1 (mc_features m) [x]) [y] None = Err OutOfBounds.
Proof.
  intros Hr Hx Hy. split.
  - unfold mc_joint_feature. destruct (Nat.ltb_spec y (mc_states m)); [lia|]. reflexivity.
  - unfold mc_batch_joint_feature. rewrite Hr. cbn [mrows mcols length mdat]. rewrite !Nat.eqb_refl. cbn [ensure bind cs_loop mat_zeros mrows mtab].
    destruct (Nat.ltb_spec y (mc_states m)); [lia|]. reflexivity.
Qed.
Lemma mc_y_true_required m x y X Y : mc_rescale m = true -> length x = mc_features m -> (y < mc_states m)%nat ->
  mc_joint_feature m x y None = Err ValueError /\ mc_batch_joint_feature m X Y None = Err ValueError.
Proof.
  intros Hr Hx Hy. split.
  - unfold mc_joint_feature, bcast_row. apply Nat.ltb_lt in Hy. rewrite Hy, Hr, Hx, Nat.eqb_refl. reflexivity.
  - unfold mc_batch_joint_feature. rewrite Hr. reflexivity.
Qed.

Lemma mc_joint_feature_score m x w y :
  mc_rescale m = false -> (y < mc_states m)%nat -> length x = mc_features m -> length w = mc_size m ->
  mc_joint_feature m x y None = Ok (class_feature 1 (mc_states m) (mc_features m) x y) /\
  length (class_feature 1 (mc_states m) (mc_features m) x y) = mc_size m /\
  dot w (class_feature 1 (mc_states m) (mc_features m) x y) = class_score (mc_features m) w x y.
Proof.
  intros Hr Hy Hx Hw. split; [|split].
  - apply mc_joint_ok; auto. rewrite Hr. reflexivity.
  - apply class_feature_length.
  - rewrite dot_class_feature by auto. apply Qcmult_1_l.
Qed.

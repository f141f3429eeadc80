From Verif Require Import Model.CRF Model.Exhaustive Spec.Energy Spec.GraphSpec Spec.LossSpec Spec.SolverSpec
  Proofs.Arrays Proofs.EnergyProofs Proofs.GraphCRFProofs Proofs.LossProofs.

Lemma g_potentials_ok g x w : valid_x g x -> length w = g_size g ->
  exists U P, g_potentials g x w = Ok (U, P) /\ mat_ok U /\ mrows U = mrows (gx_features x) /\ mcols U = g_states g /\
    mat_ok P /\ mrows P = g_states g /\ mcols P = g_states g /\
    (forall i s, (i < mrows (gx_features x))%nat -> (s < g_states g)%nat ->
      mget U i s = unary_score (g_features g) w (mget (gx_features x) i) s) /\
    (forall s t, (s < g_states g)%nat -> (t < g_states g)%nat ->
      mget P s t = pair_score (g_states g) (g_features g) (g_directed g) w s t).
Proof.
  intros Hx Hw.
  destruct (g_unary_ok g x w Hx Hw) as [U [EU [OU [RU [CU GU]]]]].
  destruct (g_pairwise_ok g x w Hx Hw) as [P [EP [OP [RP [CP GP]]]]].
  exists U, P. unfold g_potentials. rewrite check_size_w_ok by exact Hw. cbn [bind]. rewrite EU. cbn [bind].
  rewrite EP. cbn [bind]. repeat (split; auto).
Qed.

Definition g_score (g : graph_crf) (x : graph_x) (w : list Qc) (y : list nat) : Qc :=
  score (mrows (gx_features x)) (gx_edges x)
        (fun i => unary_score (g_features g) w (mget (gx_features x) i))
        (fun _ => pair_score (g_states g) (g_features g) (g_directed g) w) (lab y).

Lemma g_score_potentials g x w U P y :
  valid_x g x -> labelling (mrows (gx_features x)) (g_states g) y ->
  (forall i s, (i < mrows (gx_features x))%nat -> (s < g_states g)%nat ->
      mget U i s = unary_score (g_features g) w (mget (gx_features x) i) s) ->
  (forall s t, (s < g_states g)%nat -> (t < g_states g)%nat ->
      mget P s t = pair_score (g_states g) (g_features g) (g_directed g) w s t) ->
  score (mrows (gx_features x)) (gx_edges x) (mget U) (fun _ => mget P) (lab y) = g_score g x w y.
Proof.
  intros Hx Hy HU HP. apply score_ext.
  - apply (vx_edges g x Hx).
  - intros i Hi. apply HU; auto. eapply labelling_lt; eauto.
  - intros e a b He Ha Hb. apply HP; eapply labelling_lt; eauto.
Qed.

(** inference maximises dot(w, joint_feature) *)
Lemma g_inference_exact solve g x w :
  exact_solver_on solve (mrows (gx_features x)) (gx_edges x) -> valid_x g x -> length w = g_size g -> (0 < g_states g)%nat ->
  exists y psi, g_inference solve g x w = Ok y /\ labelling (mrows (gx_features x)) (g_states g) y /\
    g_joint_feature g x (Discrete y) = Ok psi /\
    forall y' psi', labelling (mrows (gx_features x)) (g_states g) y' ->
      g_joint_feature g x (Discrete y') = Ok psi' -> dot w psi' <= dot w psi.
Proof.
  intros Hs Hx Hw Hk.
  destruct (g_potentials_ok g x w Hx Hw) as [U [P [E [OU [RU [CU [OP [RP [CP [GU GP]]]]]]]]]].
  destruct (Hs U P (g_states g)) as [y [Ey [Hy Hm]]]; auto.
  destruct (g_joint_feature_discrete g x w y Hx Hw Hy) as [psi [E1 [E2 E3]]].
  exists y, psi. unfold g_inference. rewrite E. cbn [bind fst snd]. repeat (split; auto).
  intros y' psi' Hy' E'. destruct (g_joint_feature_discrete g x w y' Hx Hw Hy') as [psi2 [F1 [F2 F3]]].
  rewrite E' in F1. injection F1 as <-. rewrite E3, F3.
  fold (g_score g x w y). fold (g_score g x w y').
  rewrite <- (g_score_potentials g x w U P y), <- (g_score_potentials g x w U P y') by assumption.
  apply Hm. exact Hy'.
Qed.

Lemma g_loss_augmented_exact solve g cw x y w :
  exact_solver_on solve (mrows (gx_features x)) (gx_edges x) -> valid_x g x -> length w = g_size g -> (0 < g_states g)%nat ->
  length cw = g_states g -> labelling (mrows (gx_features x)) (g_states g) y ->
  exists yh psi l, g_loss_augmented_inference solve g cw x y w = Ok yh /\
    labelling (mrows (gx_features x)) (g_states g) yh /\
    g_joint_feature g x (Discrete yh) = Ok psi /\ loss (Some cw) y yh = Ok l /\
    forall y' psi' l', labelling (mrows (gx_features x)) (g_states g) y' ->
      g_joint_feature g x (Discrete y') = Ok psi' -> loss (Some cw) y y' = Ok l' ->
      dot w psi' + l' <= dot w psi + l.
Proof.
  intros Hs Hx Hw Hk Hc Hy.
  destruct (g_potentials_ok g x w Hx Hw) as [U [P [E [OU [RU [CU [OP [RP [CP [GU GP]]]]]]]]]].
  destruct (loss_augment_ok U y cw _ _ RU CU Hc Hy) as [U' [EU' [OU' [RU' [CU' GU']]]]].
  destruct (Hs U' P (g_states g)) as [yh [Ey [Hyh Hm]]]; auto.
  destruct (g_joint_feature_discrete g x w yh Hx Hw Hyh) as [psi [E1 [E2 E3]]].
  assert (EL := loss_weighted _ _ cw y yh Hc Hy (proj1 Hyh)).
  exists yh, psi. eexists. unfold g_loss_augmented_inference. rewrite E. cbn [bind fst snd]. rewrite EU'. cbn [bind].
  split; [exact Ey|]. split; [exact Hyh|]. split; [exact E1|]. split; [exact EL|].
  intros y' psi' l' Hy' E' EL'. destruct (g_joint_feature_discrete g x w y' Hx Hw Hy') as [psi2 [F1 [F2 F3]]].
  rewrite E' in F1. injection F1 as <-.
  rewrite (loss_weighted _ _ cw y y' Hc Hy (proj1 Hy')) in EL'. injection EL' as <-.
  rewrite E3, F3. fold (g_score g x w yh). fold (g_score g x w y').
  rewrite <- (g_score_potentials g x w U P yh), <- (g_score_potentials g x w U P y') by assumption.
  assert (A : forall z, labelling (mrows (gx_features x)) (g_states g) z ->
     score (mrows (gx_features x)) (gx_edges x) (mget U') (fun _ => mget P) (lab z) =
     score (mrows (gx_features x)) (gx_edges x) (mget U) (fun _ => mget P) (lab z) +
     hamming (mrows (gx_features x)) (get1 cw) (lab y) (lab z)).
  { intros z Hz. unfold score, hamming.
    rewrite (sumn_ext _ (fun i => mget U' i (lab z i))
      (fun i => mget U i (lab z i) + if (lab y i =? lab z i)%nat then 0 else get1 cw (lab y i))).
    - rewrite sumn_plus. ring.
    - intros i Hi. apply GU'; auto. eapply labelling_lt; eauto. }
  rewrite <- !A by assumption. apply Hm. exact Hy'.
Qed.

(** ** exhaustive search *)
Lemma product_range_in k n y : In y (product_range k n) <-> labelling n k y.
Proof.
  unfold labelling. revert y. induction n; intros y; simpl.
  - split; [intros [<-|[]]; auto|]. intros [H _]. destruct y; [auto|discriminate].
  - rewrite in_flat_map. split.
    + intros [a [Ha Hy]]. apply in_map_iff in Hy. destruct Hy as [z [<- Hz]]. apply IHn in Hz.
      apply in_seq in Ha. simpl. split; [lia|constructor; [lia|tauto]].
    + intros [HL HF]. destruct y as [|a y]; [discriminate|]. inversion HF; subst.
      exists a. split; [apply in_seq; lia|]. apply in_map, IHn. simpl in HL. split; auto.
Qed.
Lemma product_range_nonempty k n : (0 < k)%nat -> product_range k n <> [].
Proof.
  intros Hk E. assert (In (repeat O n) (product_range k n)).
  { apply product_range_in. split; [apply repeat_length|]. apply Forall_forall. intros x Hx.
    apply repeat_spec in Hx. subst. exact Hk. }
  rewrite E in H. exact H.
Qed.

(** The loop returns the first element of minimal energy. *)
Lemma exhaustive_loop_spec (energy : list nat -> res Qc) (f : list nat -> Qc) ys :
  (forall y, In y ys -> energy y = Ok (f y)) ->
  forall best, exists r, exhaustive_loop energy ys best = Ok r /\
   match best with
   | None => match ys with [] => r = None | _ => exists pre y post, ys = pre ++ y :: post /\ r = Some (y, f y) /\
                (forall z, In z ys -> f y <= f z) /\ (forall z, In z pre -> f y < f z) end
   | Some (b, fb) =>
      (r = Some (b, fb) /\ forall z, In z ys -> fb <= f z) \/
      (exists pre y post, ys = pre ++ y :: post /\ r = Some (y, f y) /\ f y < fb /\
                (forall z, In z ys -> f y <= f z) /\ (forall z, In z pre -> f y < f z))
   end.
Proof.
  induction ys as [|y ys IH]; intros He best.
  - exists best. split; [reflexivity|]. destruct best as [[b fb]|]; [left|]; auto. split; auto. intros ? [].
  - simpl. rewrite He by (simpl; auto). cbn [bind].
    assert (Hys : forall z, In z ys -> energy z = Ok (f z)) by (intros; apply He; simpl; auto).
    assert (Kstep : exists r, exhaustive_loop energy ys (Some (y, f y)) = Ok r /\
      exists pre z post, y :: ys = pre ++ z :: post /\ r = Some (z, f z) /\ f z <= f y /\
        (forall v, In v (y :: ys) -> f z <= f v) /\ (forall v, In v pre -> f z < f v)).
    { destruct (IH Hys (Some (y, f y))) as [r [Er [[E H]|[pre [z [post [E [E2 [L [H1 H2]]]]]]]]]]; exists r; split; auto.
      - exists [], y, ys. repeat split; auto. apply Qcle_refl. intros v [<-|Hv]; [apply Qcle_refl|auto]. intros v [].
      - exists (y :: pre), z, post. rewrite E. repeat split; auto. qclra.
        intros v [<-|Hv]; [qclra|]. apply H1. rewrite E. exact Hv. intros v [<-|Hv]; auto. }
    destruct best as [[b fb]|].
    + destruct (Qcltb_spec (f y) fb) as [L|L].
      * destruct Kstep as [r [Er [pre [z [post [E [E2 [L2 [H1 H2]]]]]]]]]. exists r. split; auto. right.
        exists pre, z, post. repeat split; auto. qclra.
      * destruct (IH Hys (Some (b, fb))) as [r [Er [[E H]|[pre [z [post [E [E2 [L2 [H1 H2]]]]]]]]]]; exists r; split; auto.
        { left. split; auto. intros v [<-|Hv]; auto. }
        { right. exists (y :: pre), z, post. rewrite E. repeat split; auto.
          intros v [<-|Hv]; [qclra|]. apply H1. rewrite E. exact Hv. intros v [<-|Hv]; [qclra|auto]. }
    + destruct Kstep as [r [Er [pre [z [post [E [E2 [L2 [H1 H2]]]]]]]]]. exists r. split; auto.
      exists pre, z, post. auto.
Qed.

Lemma np_dot_ok a b : length a = length b -> np_dot a b = Ok (dot a b).
Proof. intro H. unfold np_dot. rewrite H, Nat.eqb_refl. reflexivity. Qed.

Lemma flat_map_split {A B} (f : A -> list B) l pre y post :
  flat_map f l = pre ++ y :: post ->
  exists l1 a l2 p q, l = l1 ++ a :: l2 /\ f a = p ++ y :: q /\ pre = flat_map f l1 ++ p /\ post = q ++ flat_map f l2.
Proof.
  revert pre. induction l as [|a l IH]; simpl; intros pre H; [destruct pre; discriminate|].
  assert (D : (exists q, f a = pre ++ y :: q /\ post = q ++ flat_map f l) \/
              (exists p, pre = f a ++ p /\ flat_map f l = p ++ y :: post)).
  { revert pre H. induction (f a) as [|b fa IHf]; simpl; intros pre H.
    - right. exists pre. auto.
    - destruct pre as [|c pre]; simpl in H; injection H as -> H.
      + left. exists fa. split; auto.
      + destruct (IHf _ H) as [[q [E1 E2]]|[p [E1 E2]]].
        * left. exists q. rewrite E1. auto.
        * right. exists p. rewrite E1. auto. }
  destruct D as [[q [E1 E2]]|[p [E1 E2]]].
  - exists [], a, l, pre, q. simpl. auto.
  - destruct (IH _ E2) as [l1 [a' [l2 [p' [q [F1 [F2 [F3 F4]]]]]]]].
    exists (a :: l1), a', l2, p', q. simpl. rewrite F1. repeat split; auto. rewrite E1, F3, app_assoc. reflexivity.
Qed.

Lemma lex_trans a b c : lex_lt a b -> lex_lt b c -> lex_lt a c.
Proof.
  revert b c. induction a; intros [|b0 b] [|c0 c]; simpl; try tauto.
  intros [H|[-> H]] [K|[-> K]]; try (left; lia). right. eauto.
Qed.

(** every element before [y] in the enumeration is the lex-smaller one, and vice versa *)
Lemma product_range_before k n pre y post : product_range k n = pre ++ y :: post ->
  forall z, In z post -> lex_lt y z.
Proof.
  revert pre y post. induction n; simpl; intros pre y post H z Hz.
  - destruct pre as [|? [|]]; try discriminate. injection H as <- <-. destruct Hz.
  - destruct (flat_map_split _ _ _ _ _ H) as [l1 [a [l2 [p [q [E1 [E2 [E3 E4]]]]]]]].
    apply map_eq_app in E2. destruct E2 as [p0 [r [F1 [F2 F3]]]].
    destruct r as [|y0 q0]; simpl in F3; [discriminate|]. injection F3 as <- <-.
    rewrite E4 in Hz. apply in_app_or in Hz. destruct Hz as [Hz|Hz].
    + apply in_map_iff in Hz. destruct Hz as [z0 [<- Hz]]. simpl. right. split; auto. eapply IHn; eauto.
    + apply in_flat_map in Hz. destruct Hz as [b [Hb Hz]]. apply in_map_iff in Hz. destruct Hz as [z0 [<- Hz]].
      simpl. left.
      assert (S : forall l1 l2 a s m, seq s m = l1 ++ a :: l2 -> forall b, In b l2 -> (a < b)%nat).
      { clear. intros l1 l2 a s m. revert l1 s. induction m; intros [|x l1] s E b Hb; simpl in E; try discriminate.
        - injection E as <- <-. apply in_seq in Hb. lia.
        - injection E as -> E. eapply IHm; eauto. }
      eapply S; eauto.
Qed.

Lemma exhaustive_first k n (energy : list nat -> res Qc) (f : list nat -> Qc) :
  (0 < k)%nat -> (forall y, labelling n k y -> energy y = Ok (f y)) ->
  exists y, exhaustive_loop energy (product_range k n) None = Ok (Some (y, f y)) /\ labelling n k y /\
    (forall z, labelling n k z -> f y <= f z) /\
    (forall z, labelling n k z -> f z = f y -> z = y \/ lex_lt y z).
Proof.
  intros Hk He.
  destruct (exhaustive_loop_spec energy f (product_range k n)) with (best := @None (list nat * Qc)) as [r [Er H]].
  { intros y Hy. apply He, product_range_in, Hy. }
  destruct (product_range k n) eqn:E; [exfalso; apply (product_range_nonempty k n Hk E)|]. rewrite <- E in *.
  destruct H as [pre [y [post [E1 [E2 [H1 H2]]]]]]. exists y. rewrite Er, E2. split; auto.
  split; [apply product_range_in; rewrite E1; apply in_elt|].
  split; [intros z Hz; apply H1, product_range_in, Hz|].
  intros z Hz Ez. apply product_range_in in Hz. rewrite E1 in Hz. apply in_app_or in Hz.
  destruct Hz as [Hz|[Hz|Hz]]; auto.
  - apply H2 in Hz. rewrite Ez in Hz. exfalso. qclra.
  - right. eapply product_range_before; eauto.
Qed.

Lemma exhaustive_inference_exact g x w :
  valid_x g x -> length w = g_size g -> (0 < g_states g)%nat ->
  exists y psi, exhaustive_inference g x w = Ok (Some y) /\ labelling (mrows (gx_features x)) (g_states g) y /\
    g_joint_feature g x (Discrete y) = Ok psi /\
    forall y' psi', labelling (mrows (gx_features x)) (g_states g) y' ->
      g_joint_feature g x (Discrete y') = Ok psi' ->
      dot w psi' <= dot w psi /\ (dot w psi' = dot w psi -> y' = y \/ lex_lt y y').
Proof.
  intros Hx Hw Hk. unfold exhaustive_inference.
  set (n := mrows (gx_features x)).
  destruct (exhaustive_first (g_states g) n (fun y_hat => let! psi := g_joint_feature g x (Discrete y_hat) in
                  let! d := np_dot w psi in Ok (- d)) (fun y => - g_score g x w y) Hk) as [y [E [Hy [H1 H2]]]].
  { intros y Hy. destruct (g_joint_feature_discrete g x w y Hx Hw Hy) as [psi [E1 [E2 E3]]].
    rewrite E1. cbn [bind]. rewrite np_dot_ok by congruence. cbn [bind]. rewrite E3. reflexivity. }
  destruct (g_joint_feature_discrete g x w y Hx Hw Hy) as [psi [E1 [E2 E3]]].
  exists y, psi. rewrite E. cbn [bind]. split; [reflexivity|]. split; [exact Hy|]. split; [exact E1|].
  intros y' psi' Hy' E'. destruct (g_joint_feature_discrete g x w y' Hx Hw Hy') as [psi2 [F1 [F2 F3]]].
  rewrite E' in F1. injection F1 as <-. rewrite E3, F3. fold (g_score g x w y). fold (g_score g x w y').
  split; [specialize (H1 y' Hy'); qclra|]. intro Q. apply H2; auto. rewrite Q. reflexivity.
Qed.

Lemma exhaustive_loss_augmented_exact g cw x y w :
  valid_x g x -> length w = g_size g -> (0 < g_states g)%nat -> length cw = g_states g ->
  labelling (mrows (gx_features x)) (g_states g) y ->
  exists yh psi l, exhaustive_loss_augmented_inference g cw x y w = Ok (Some yh) /\
    labelling (mrows (gx_features x)) (g_states g) yh /\
    g_joint_feature g x (Discrete yh) = Ok psi /\ loss (Some cw) y yh = Ok l /\
    forall y' psi' l', labelling (mrows (gx_features x)) (g_states g) y' ->
      g_joint_feature g x (Discrete y') = Ok psi' -> loss (Some cw) y y' = Ok l' ->
      dot w psi' + l' <= dot w psi + l /\ (dot w psi' + l' = dot w psi + l -> y' = yh \/ lex_lt yh y').
Proof.
  intros Hx Hw Hk Hc Hy. unfold exhaustive_loss_augmented_inference. rewrite (proj1 Hy).
  set (n := mrows (gx_features x)) in *.
  destruct (exhaustive_first (g_states g) n (fun y_hat => let! psi := g_joint_feature g x (Discrete y_hat) in
                  let! l := loss (Some cw) y y_hat in
                  let! d := np_dot w psi in Ok (- l - d))
       (fun z => - (hamming n (get1 cw) (lab y) (lab z)) - g_score g x w z) Hk) as [yh [E [Hyh [H1 H2]]]].
  { intros z Hz. destruct (g_joint_feature_discrete g x w z Hx Hw Hz) as [psi [E1 [E2 E3]]].
    rewrite E1. cbn [bind]. rewrite (loss_weighted n _ cw y z Hc Hy (proj1 Hz)). cbn [bind].
    rewrite np_dot_ok by congruence. cbn [bind]. rewrite E3. reflexivity. }
  destruct (g_joint_feature_discrete g x w yh Hx Hw Hyh) as [psi [E1 [E2 E3]]].
  exists yh, psi. eexists. rewrite E. cbn [bind]. split; [reflexivity|]. split; [exact Hyh|]. split; [exact E1|].
  split; [apply (loss_weighted n _ cw y yh Hc Hy (proj1 Hyh))|].
  intros y' psi' l' Hy' E' EL'. destruct (g_joint_feature_discrete g x w y' Hx Hw Hy') as [psi2 [F1 [F2 F3]]].
  rewrite E' in F1. injection F1 as <-.
  rewrite (loss_weighted n _ cw y y' Hc Hy (proj1 Hy')) in EL'. injection EL' as <-.
  rewrite E3, F3. fold (g_score g x w yh). fold (g_score g x w y').
  specialize (H1 y' Hy'). split; [qclra|]. intro Q. apply H2; auto. qclra.
Qed.

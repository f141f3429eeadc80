From Verif Require Import Model.SVM Spec.QPSpec Spec.SVMSpec Proofs.Arrays Proofs.QPProofs.

Lemma point_length n d X y i : svm_data n d X y -> (i < n)%nat -> length (point X i) = d.
Proof.
  intros ([L F] & Hr & Hc & _) Hi. unfold point. rewrite <- Hc. rewrite Forall_forall in F. apply F, nth_In. rewrite L, Hr. exact Hi.
Qed.
Lemma point_get X i j : get1 (point X i) j = mget X i j.
Proof. reflexivity. Qed.
Lemma label_sq n d X y i : svm_data n d X y -> (i < n)%nat -> get1 y i * get1 y i = 1.
Proof. intros (_ & _ & _ & _ & H) Hi. destruct (H i Hi) as [-> | ->]; ring. Qed.

(** signed points *)
Definition signed (n d : nat) (X : mat) (y : list Qc) : list (list Qc) := tab2 n d (fun i j => mget X i j * get1 y i).
Lemma signed_length n d X y : length (signed n d X y) = n.
Proof. apply tab2_length. Qed.
Lemma signed_rows n d X y : Forall (fun u => length u = d) (signed n d X y).
Proof.
  apply Forall_forall. intros u I. apply (In_nth _ _ []) in I. destruct I as (i & Hi & <-). rewrite signed_length in Hi.
  unfold signed. rewrite nth_tab2 by assumption. apply tab1_length.
Qed.
Lemma signed_dot n d X y i v : svm_data n d X y -> (i < n)%nat -> length v = d ->
  dot (nth i (signed n d X y) []) v = get1 y i * dot (point X i) v.
Proof.
  intros D Hi Hv. unfold signed. rewrite nth_tab2 by assumption.
  rewrite dot_get by (rewrite tab1_length; auto). rewrite dot_get by (rewrite (point_length n d X y) by assumption; auto).
  rewrite tab1_length, (point_length n d X y) by assumption. rewrite <- sumn_mult_l. apply sumn_ext. intros j Hj.
  rewrite get1_tab1 by assumption. rewrite point_get. ring.
Qed.
Lemma dual_comb n d X y a : svm_data n d X y -> dual_weights X y a = comb d a (signed n d X y).
Proof.
  intros D. destruct D as (_ & Hr & Hc & _). unfold dual_weights, comb. rewrite Hr, Hc, signed_length. unfold tab1. apply map_ext_in.
  intros j Hj. apply in_seq in Hj. apply sumn_ext. intros i Hi. unfold signed. rewrite nth_tab2 by assumption. rewrite get1_tab1 by lia. ring.
Qed.
Lemma dual_length X y a : length (dual_weights X y a) = mcols X.
Proof. apply tab1_length. Qed.
Lemma dual_dot n d X y a v : svm_data n d X y -> length v = d ->
  dot (dual_weights X y a) v = sumn n (fun i => get1 a i * (get1 y i * dot (point X i) v)).
Proof.
  intros D Hv. rewrite (dual_comb n d X y a D), dot_comb by (auto using signed_rows). rewrite signed_length. apply sumn_ext.
  intros i Hi. rewrite (signed_dot n d) by assumption. reflexivity.
Qed.

(** the quadratic program is the dual *)
Lemma dot_unit1 n i x : length x = n -> (i < n)%nat -> dot (tab1 n (fun j => if (i =? j)%nat then 1 else 0)) x = get1 x i.
Proof.
  intros Hx Hi. rewrite dot_get by (rewrite tab1_length; auto). rewrite tab1_length.
  rewrite (sumn_ext n _ (fun j => ind (i =? j)%nat * get1 x j)).
  - apply (sumn_pick' n i (get1 x)). auto.
  - intros j Hj. rewrite get1_tab1 by auto. destruct (i =? j)%nat; unfold ind; ring.
Qed.
Lemma get1_repeat c n i : (i < n)%nat -> get1 (repeat c n) i = c.
Proof. intros H. unfold get1. rewrite nth_indep with (d' := c) by (rewrite repeat_length; auto). apply nth_repeat. Qed.

Lemma svm_problem_ok n d X y C : svm_data n d X y -> exists p, svm_problem X y C = Ok p /\
  (forall a, qp_feasible p a <-> dual_feasible C X y a) /\
  (forall a, length a = n -> qp_value p a = - dual_objective X y a).
Proof.
  intros D. pose proof D as (Hok & Hr & Hc & Hy & _). unfold svm_problem. rewrite Hr, Hy, Nat.eqb_refl. cbn [ensure bind].
  eexists. split; [reflexivity|]. split.
  - intros a. unfold qp_feasible, dual_feasible. cbn [qp_q qp_G qp_h qp_A qp_b mrows mdat mat_stack minus_identity identity mtab].
    rewrite vscale_length, repeat_length, Hr.
    assert (R1 : forall r, (r < n)%nat -> nth r (tab2 n n (fun i j => if (i =? j)%nat then - (1) else 0) ++ tab2 n n (fun i j => if (i =? j)%nat then 1 else 0)) [] = tab1 n (fun j => if (r =? j)%nat then - (1) else 0)).
    { intros r Hr'. rewrite app_nth1 by (rewrite tab2_length; lia). now apply nth_tab2. }
    assert (R2 : forall r, (r < n)%nat -> nth (n + r) (tab2 n n (fun i j => if (i =? j)%nat then - (1) else 0) ++ tab2 n n (fun i j => if (i =? j)%nat then 1 else 0)) [] = tab1 n (fun j => if (r =? j)%nat then 1 else 0)).
    { intros r Hr'. rewrite app_nth2 by (rewrite tab2_length; lia). rewrite tab2_length, Nat.add_comm, Nat.add_sub. now apply nth_tab2. }
    assert (H1 : forall r, (r < n)%nat -> get1 (vzero n ++ repeat C n) r = 0).
    { intros r Hr'. unfold get1. rewrite app_nth1 by (rewrite vzero_length; auto). apply get1_vzero. }
    assert (H2 : forall r, (r < n)%nat -> get1 (vzero n ++ repeat C n) (n + r) = C).
    { intros r Hr'. unfold get1. rewrite app_nth2 by (rewrite vzero_length; lia). rewrite vzero_length, Nat.add_comm, Nat.add_sub. now apply get1_repeat. }
    assert (E : forall a, length a = n -> dot y a = sumn n (fun i => get1 a i * get1 y i)).
    { intros a' La. rewrite dot_get by congruence. rewrite Hy. apply sumn_ext. intros; ring. }
    split.
    + intros (La & HG & HA). split; [assumption|]. split.
      * intros i Hi. split.
        -- specialize (HG i ltac:(lia)). rewrite R1, H1, dot_unit in HG by auto. qclra.
        -- specialize (HG (n + i)%nat ltac:(lia)). rewrite R2, H2, dot_unit1 in HG by auto. exact HG.
      * specialize (HA 0%nat ltac:(lia)). cbn [nth] in HA. unfold get1 in HA at 1. cbn [nth] in HA. rewrite E in HA by assumption. exact HA.
    + intros (La & HB & HS). split; [assumption|]. split.
      * intros r Hr'. destruct (Nat.lt_ge_cases r n) as [A|A].
        -- rewrite R1, H1, dot_unit by auto. destruct (HB r A) as [B _]. qclra.
        -- replace r with (n + (r - n))%nat by lia. rewrite R2, H2, dot_unit1 by (auto; lia). apply HB. lia.
      * intros r Hr'. assert (r = 0%nat) as -> by lia. cbn [nth]. unfold get1 at 1. cbn [nth]. rewrite E by assumption. exact HS.
  - intros a La. rewrite Hc. change (mtab n d (fun i j => mget X i j * get1 y i)) with (Mat n d (signed n d X y)).
    rewrite <- (signed_length n d X y) at 1. rewrite qp_obj by (rewrite ?signed_length; auto using signed_rows).
    unfold dual_objective. rewrite Hr, (dual_comb n d X y a D). rewrite dot_get by (rewrite repeat_length; auto). rewrite repeat_length.
    rewrite (sumn_ext n (fun i => get1 (repeat 1 n) i * get1 a i) (get1 a)).
    + rewrite Qcmult_0_l, Qcplus_0_r. ring.
    + intros i Hi. rewrite get1_repeat by assumption. ring.
Qed.

(** weak duality *)
Lemma slack_nonneg X y w b i : 0 <= slack X y w b i.
Proof. unfold slack, Qcmax. destruct (Qcleb_spec 0 (1 - margin X y w b i)); [assumption|apply Qcle_refl]. Qed.
Lemma slack_ge X y w b i : 1 - margin X y w b i <= slack X y w b i.
Proof. unfold slack, Qcmax. destruct (Qcleb_spec 0 (1 - margin X y w b i)); [apply Qcle_refl|]. now apply Qclt_le_weak. Qed.

Lemma svm_weighted C n d X y a w b : svm_data n d X y -> dual_feasible C X y a -> length w = d ->
  sumn n (fun i => get1 a i * (1 - margin X y w b i)) = sumn n (get1 a) - dot (dual_weights X y a) w.
Proof.
  intros D (La & HB & HS) Hw. pose proof D as (_ & Hr & _). rewrite Hr in *. rewrite (dual_dot n d) by assumption.
  rewrite (sumn_ext n _ (fun i => (get1 a i - get1 a i * (get1 y i * dot (point X i) w)) - b * (get1 a i * get1 y i))).
  - rewrite !sumn_minus, sumn_mult_l, HS. ring.
  - intros i Hi. unfold margin. rewrite (dot_comm w). ring.
Qed.
Lemma svm_weak_duality C n d X y a w b : svm_data n d X y -> dual_feasible C X y a -> length w = d ->
  dual_objective X y a <= svm_objective C X y w b.
Proof.
  intros D F Hw. pose proof (svm_weighted C n d X y a w b D F Hw) as E. pose proof D as (_ & Hr & Hc & _).
  destruct F as (La & HB & HS). unfold dual_objective, svm_objective. rewrite Hr in *.
  assert (S1 : sumn n (fun i => get1 a i * (1 - margin X y w b i)) <= C * sumn n (slack X y w b)).
  { rewrite <- sumn_mult_l. apply sumn_le. intros i Hi. destruct (HB i Hi) as [B0 B1].
    apply Qcle_trans with (get1 a i * slack X y w b i).
    - rewrite !(Qcmult_comm (get1 a i)). apply Qcmult_le_compat_r; [apply slack_ge|assumption].
    - apply Qcmult_le_compat_r; [assumption|apply slack_nonneg]. }
  assert (S2 := half_am (dual_weights X y a) w ltac:(rewrite dual_length; congruence)).
  rewrite E in S1. generalize dependent (dot (dual_weights X y a) w). generalize (C * sumn n (slack X y w b)) (sumn n (get1 a)).
  generalize (normsq (dual_weights X y a) / (1 + 1)) (normsq w / (1 + 1)). intros; qclra.
Qed.

(** variational inequality at a dual optimum *)
Definition dual_optimal (C : Qc) (X : mat) (y a : list Qc) : Prop :=
  dual_feasible C X y a /\ forall z, dual_feasible C X y z -> dual_objective X y z <= dual_objective X y a.
Lemma dual_optimal_qp n d X y C p a : svm_data n d X y -> svm_problem X y C = Ok p -> qp_optimal p a -> dual_optimal C X y a.
Proof.
  intros D E [F O]. destruct (svm_problem_ok n d X y C D) as (p' & E' & HF & HV). rewrite E in E'. injection E' as <-.
  split; [now apply HF|]. pose proof D as (_ & Hr & _).
  intros z Hz. specialize (O z (proj2 (HF z) Hz)). apply HF in F. destruct F as [La _], Hz as [Lz _]. rewrite Hr in La, Lz.
  rewrite !HV in O by assumption. generalize dependent (dual_objective X y z). generalize (dual_objective X y a). intros; qclra.
Qed.
Lemma dual_mix C n d X y a z t : svm_data n d X y -> dual_feasible C X y a -> dual_feasible C X y z -> 0 < t -> t <= 1 ->
  dual_feasible C X y (vadd a (vscale t (vsub z a))).
Proof.
  intros D (La & HB & HS) (Lz & HB' & HS') T0 T1. assert (L1 : length (vsub z a) = length a) by (rewrite vsub_length; congruence).
  assert (G : forall i, get1 (vadd a (vscale t (vsub z a))) i = (1 - t) * get1 a i + t * get1 z i).
  { intros i. rewrite get1_vadd by (rewrite vscale_length; congruence). rewrite get1_vscale, get1_vsub by congruence. ring. }
  split; [rewrite vadd_length; [assumption|rewrite vscale_length; congruence]|]. split.
  - intros i Hi. rewrite G. destruct (HB i Hi) as [A0 A1], (HB' i Hi) as [B0 B1].
    assert (0 <= (1 - t) * get1 a i) by (apply Qcmult_nonneg; [qclra|assumption]).
    assert (0 <= t * get1 z i) by (apply Qcmult_nonneg; [now apply Qclt_le_weak|assumption]).
    assert (0 <= (1 - t) * (C - get1 a i)) by (apply Qcmult_nonneg; qclra).
    assert (0 <= t * (C - get1 z i)) by (apply Qcmult_nonneg; qclra).
    replace ((1 - t) * (C - get1 a i)) with ((1 - t) * C - (1 - t) * get1 a i) in H1 by ring.
    replace (t * (C - get1 z i)) with (t * C - t * get1 z i) in H2 by ring.
    assert (EC : C = (1 - t) * C + t * C) by ring.
    generalize dependent ((1 - t) * get1 a i). generalize dependent (t * get1 z i). 
    generalize dependent ((1 - t) * C). generalize dependent (t * C). intros; split; qclra.
  - rewrite (sumn_ext _ _ (fun i => (1 - t) * (get1 a i * get1 y i) + t * (get1 z i * get1 y i))) by (intros; rewrite G; ring).
    rewrite sumn_plus, !sumn_mult_l, HS, HS'. ring.
Qed.
Lemma dual_vi C n d X y a z : svm_data n d X y -> dual_optimal C X y a -> dual_feasible C X y z ->
  sumn n (fun i => (get1 z i - get1 a i) * (1 - get1 y i * dot (dual_weights X y a) (point X i))) <= 0.
Proof.
  intros D [F O] Fz. pose proof D as (_ & Hr & Hc & _).
  assert (La : length a = n) by (destruct F; congruence). assert (Lz : length z = n) by (destruct Fz; congruence).
  pose proof (first_order d (signed n d X y) (repeat 1 n) a z 0 (signed_rows _ _ _ _)) as H.
  rewrite signed_length, repeat_length in H. specialize (H La Lz eq_refl (Qcle_refl _)).
  assert (S : forall v, length v = n -> dot (repeat 1 n) v = sumn n (get1 v)).
  { intros v Lv. rewrite dot_get by (rewrite repeat_length; auto). rewrite repeat_length. apply sumn_ext. intros i Hi. rewrite get1_repeat by assumption. ring. }
  assert (HH : dot (repeat 1 n) z - dot (comb d a (signed n d X y)) (comb d z (signed n d X y)) <=
    dot (repeat 1 n) a - normsq (comb d a (signed n d X y)) + 0 * (dot a z - normsq a)).
  { apply H. intros t T0 T1. pose proof (O _ (dual_mix C n d X y a z t D F Fz T0 T1)) as O'. unfold dual_objective in O'.
    rewrite Hr, !(dual_comb n d X y _ D) in O'. rewrite !S by (rewrite ?vadd_length; rewrite ?vscale_length, ?vsub_length; congruence).
    rewrite !Qcmult_0_l. replace (0 / (1 + 1)) with 0 by (unfold Qcdiv; ring).
    generalize dependent (normsq (comb d a (signed n d X y)) / (1 + 1)). intros q1. 
    generalize (normsq (comb d (vadd a (vscale t (vsub z a))) (signed n d X y)) / (1 + 1)) (sumn n (get1 (vadd a (vscale t (vsub z a))))) (sumn n (get1 a)).
    intros; qclra. }
  clear H. rewrite !S in HH by assumption. rewrite <- !(dual_comb n d X y _ D) in HH. unfold normsq in HH.
  set (w := dual_weights X y a) in *. assert (Lw : length w = d) by (unfold w; rewrite dual_length; assumption).
  rewrite (dot_comm w (dual_weights X y z)) in HH. rewrite (dual_dot n d X y z w D Lw) in HH.
  replace (dot w w) with (sumn n (fun i => get1 a i * (get1 y i * dot (point X i) w))) in HH by (symmetry; apply (dual_dot n d X y a w D Lw)).
  rewrite (sumn_ext n _ (fun i => (get1 z i - get1 a i * 1) - (get1 z i * (get1 y i * dot (point X i) w) - get1 a i * (get1 y i * dot (point X i) w))))
    by (intros i Hi; rewrite (dot_comm w); ring).
  rewrite !sumn_minus. rewrite (sumn_ext n (fun i => get1 a i * 1) (get1 a)) by (intros; ring).
  rewrite Qcmult_0_l, Qcplus_0_r in HH.
  generalize dependent (sumn n (fun i => get1 z i * (get1 y i * dot (point X i) w))).
  generalize (sumn n (fun i => get1 a i * (get1 y i * dot (point X i) w))) (sumn n (get1 z)) (sumn n (get1 a)). intros; qclra.
Qed.

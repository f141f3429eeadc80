From Coq Require Import Lia.
From Verif Require Import Base.Sums Spec.NSlackSpec Spec.SvmStructSpec Model.Instances Proofs.Arrays Proofs.UnstructuredProofs Proofs.UnstructuredProofs2 Proofs.SubgradientRate6.

(** ** scaling the loss *)
Section Scale.
Context {X Y Y' : Type} (T : task X Y) (T' : task X Y') (f : Y -> Y') (g : Y' -> Y) (d : nat) (k : Qc).
Hypothesis Hk : 0 < k.
Hypothesis Hf : forall x y, t_label T x y -> t_label T' x (f y) /\ g (f y) = y.
Hypothesis Hg : forall x y, t_label T' x y -> t_label T x (g y) /\ f (g y) = y.
Hypothesis Hfeat : forall x y, t_label T x y -> t_feat T' x (f y) = t_feat T x y.
Hypothesis Hloss : forall x y y', t_label T x y -> t_label T x y' -> t_loss T' (f y) (f y') = k * t_loss T y y'.
Lemma k_nz : k <> 0.
Proof. apply Qclt_not_eq in Hk. congruence. Qed.
Lemma scale_margin w x y y' : t_label T x y -> t_label T x y' -> margin T' w x (f y) (f y') = k * margin T (vscale (/ k) w) x y y'.
Proof.
  intros L L'. unfold margin. rewrite !Hfeat by assumption. rewrite (Hloss x) by assumption. rewrite !dot_vscale_l. field. exact k_nz.
Qed.
Lemma scale_hinge w x y h : t_label T x y -> is_hinge T (vscale (/ k) w) x y h <-> is_hinge T' w x (f y) (k * h).
Proof.
  intros L. split.
  - intros [[y' [L' E]] B]. split.
    + exists (f y'). split; [apply Hf; exact L'|]. rewrite (scale_margin w x y y' L L'), E. reflexivity.
    + intros z Lz. destruct (Hg x z Lz) as [Lg Eg]. rewrite <- Eg, (scale_margin w x y (g z) L Lg).
      rewrite !(Qcmult_comm k). apply Qcmult_le_compat_r; [apply B; exact Lg|apply Qclt_le_weak; exact Hk].
  - intros [[z [Lz E]] B]. destruct (Hg x z Lz) as [Lg Eg]. rewrite <- Eg, (scale_margin w x y (g z) L Lg) in E. split.
    + exists (g z). split; [exact Lg|]. apply Qcmult_integral_aux || idtac.
      assert (Q : / k * (k * margin T (vscale (/ k) w) x y (g z)) = / k * (k * h)) by (rewrite E; reflexivity).
      rewrite !Qcmult_assoc, (Qcmult_comm (/ k) k), Qcmult_inv_r, !Qcmult_1_l in Q by exact k_nz. exact Q.
    + intros y' L'. pose proof (B (f y') (proj1 (Hf x y' L'))) as Q. rewrite (scale_margin w x y y' L L') in Q.
      apply Qcmult_lt_0_le_reg_r with (z := k); [exact Hk|]. rewrite !(Qcmult_comm _ k). exact Q.
Qed.
Let on (p : X * Y) : X * Y' := (fst p, f (snd p)).
Lemma scale_hinges w S hs : Forall (fun p => t_label T (fst p) (snd p)) S ->
  (hinges T (vscale (/ k) w) S hs <-> hinges T' w (map on S) (map (Qcmult k) hs)).
Proof.
  intros HS. revert hs. induction HS as [|p S Hp _ IH]; intros hs.
  - unfold hinges. cbn [map]. split; intros H; [inversion H; constructor|]. destruct hs; [constructor|inversion H].
  - unfold hinges in *. cbn [map]. destruct hs as [|h hs]; [split; intros H; inversion H|]. cbn [map]. split; intros H; inversion H; subst; constructor.
    + cbn [on fst snd]. apply scale_hinge; assumption.
    + apply IH. assumption.
    + cbn [on fst snd] in *. apply scale_hinge; assumption.
    + apply IH. assumption.
Qed.
Lemma lsum_scale hs : lsum (map (Qcmult k) hs) = k * lsum hs.
Proof. rewrite (lsum_map_mult_l k (fun h => h)), map_id. reflexivity. Qed.
Lemma scale_value C w hs : primal_value (C * k) w (map (Qcmult k) hs) = k * k * primal_value C (vscale (/ k) w) hs.
Proof.
  unfold primal_value, normsq. rewrite lsum_scale, dot_vscale_l, dot_vscale_r. field. split; [exact k_nz|discriminate].
Qed.
Lemma map_unscale hs : map (Qcmult k) (map (Qcmult (/ k)) hs) = hs.
Proof.
  rewrite map_map. rewrite <- (map_id hs) at 2. apply map_ext. intros h. rewrite Qcmult_assoc, Qcmult_inv_r by exact k_nz. apply Qcmult_1_l.
Qed.
Lemma unscale_vec v : vscale (/ k) (vscale k v) = v.
Proof.
  unfold vscale. rewrite map_map. rewrite <- (map_id v) at 2. apply map_ext. intros h. rewrite Qcmult_assoc, (Qcmult_comm (/ k)), Qcmult_inv_r by exact k_nz. apply Qcmult_1_l.
Qed.
Lemma scale_near C S w e : Forall (fun p => t_label T (fst p) (snd p)) S ->
  (near_minimal T' d (C * k) (map on S) w e <-> near_minimal T d C S (vscale (/ k) w) (e / (k * k))).
Proof.
  intros HS. assert (KK : 0 < k * k) by (apply Qcmult_pos; exact Hk).
  assert (KE : k * k * (e / (k * k)) = e) by (field; exact k_nz).
  unfold near_minimal. rewrite vscale_length. split; intros [Hw [hs [H B]]]; (split; [exact Hw|]).
  - exists (map (Qcmult (/ k)) hs). split; [apply (scale_hinges w S _ HS); rewrite map_unscale; exact H|].
    intros v hv Lv Hv. rewrite <- (unscale_vec v) in Hv. apply (scale_hinges _ S _ HS) in Hv.
    specialize (B (vscale k v) _ ltac:(rewrite vscale_length; exact Lv) Hv). rewrite scale_value, unscale_vec in B.
    rewrite <- (map_unscale hs), scale_value in B.
    apply Qcmult_lt_0_le_reg_r with (z := k * k); [exact KK|]. rewrite !(Qcmult_comm _ (k * k)), Qcmult_plus_distr_r, KE. exact B.
  - exists (map (Qcmult k) hs). split; [apply (scale_hinges w S _ HS); exact H|].
    intros v hv Lv Hv. rewrite <- (map_unscale hv) in Hv |- *. apply (scale_hinges v S _ HS) in Hv.
    specialize (B (vscale (/ k) v) _ ltac:(rewrite vscale_length; exact Lv) Hv). rewrite !scale_value.
    replace (k * k * primal_value C (vscale (/ k) v) (map (Qcmult (/ k)) hv) + e) with (k * k * (primal_value C (vscale (/ k) v) (map (Qcmult (/ k)) hv) + e / (k * k))) by (rewrite Qcmult_plus_distr_r, KE; reflexivity).
    rewrite !(Qcmult_comm (k * k)). apply Qcmult_le_compat_r; [exact B|apply Qclt_le_weak; exact KK].
Qed.
End Scale.

(** ** the two programs solve the same problem *)
Lemma hundred_pos : 0 < ofN 100.
Proof. vm_compute. reflexivity. Qed.
Definition plus_one (p : list Qc * nat) : list Qc * nat := (fst p, S (snd p)).
Lemma combine_plus_one (X : list (list Qc)) : forall y, combine X (map S y) = map plus_one (combine X y).
Proof. induction X as [|x X IH]; intros [|a y]; cbn; [reflexivity|reflexivity|reflexivity|]. rewrite IH. reflexivity. Qed.
Lemma svm_same k F C S w e : S <> [] -> Forall (fun p => (snd p < k)%nat) S ->
  (svm_minimal k F (C * ofN 100 * ofN (length S)) (map plus_one S) w e <->
   near_minimal (mc_task k F (fun _ => 1)) (k * F) C S (vscale (/ ofN 100) w) (e / (ofN 100 * ofN 100))).
Proof.
  intros HN HS. unfold svm_minimal. rewrite map_length.
  assert (E : C * ofN 100 * ofN (length S) / ofN (length S) = C * ofN 100).
  { assert (0 < ofN (length S)) by (apply ofN_pos; destruct S; [contradiction|cbn; lia]). apply Qclt_not_eq in H.
    unfold Qcdiv. rewrite <- Qcmult_assoc, Qcmult_inv_r by congruence. ring. }
  rewrite E. apply (scale_near (mc_task k F (fun _ => 1)) (svm_task k F) Datatypes.S (fun y => y - 1)%nat (k * F) (ofN 100) hundred_pos).
  - intros x y Hy. cbn [t_label mc_task svm_task] in *. split; lia.
  - intros x y Hy. cbn [t_label mc_task svm_task] in *. split; lia.
  - intros x y _. cbn [t_feat mc_task svm_task]. rewrite Nat.sub_succ, Nat.sub_0_r. reflexivity.
  - intros x y y' _ _. cbn [t_loss mc_task svm_task]. change (Datatypes.S y =? Datatypes.S y')%nat with (y =? y')%nat. destruct (y =? y')%nat; ring.
  - eapply Forall_impl; [|exact HS]. intros p Hp. exact Hp.
Qed.
Lemma svm_fit sv k F C X y w e : X <> [] -> length X = length y -> Forall (fun s => (s < k)%nat) y -> ms_fit sv C X y = Ok w ->
  svm_minimal k F (C * ofN 100 * ofN (length X)) (combine X (map S y)) (sv_learn sv (C * ofN 100 * ofN (length X)) (combine X (map S y))) e ->
  near_minimal (mc_task k F (fun _ => 1)) (k * F) C (combine X y) (vscale (/ ofN 100) w) (e / (ofN 100 * ofN 100)).
Proof.
  intros HN HL HY E H. unfold ms_fit in E. rewrite HL, Nat.eqb_refl in E. cbn [ensure bind] in E. injection E as E.
  rewrite <- HL in E. rewrite E in H. rewrite combine_plus_one in H.
  apply svm_same.
  - intros Q. destruct X as [|x X]; [contradiction|]. destruct y as [|a y]; [discriminate HL|discriminate Q].
  - apply Forall_forall. intros [x s] Hp. apply in_combine_r in Hp. rewrite Forall_forall in HY. apply HY. exact Hp.
  - rewrite combine_length, <- HL, Nat.min_id. exact H.
Qed.
Lemma mc_oracle k F S : (0 < k)%nat -> Forall (fun p => length (fst p) = F /\ (snd p < k)%nat) S ->
  oracle_exact (mc_smodel (MC k F (repeat 1 k) true false)) (mc_task k F (fun _ => 1)) (k * F) S.
Proof.
  intros Hk HS p Hp. rewrite Forall_forall in HS. destruct (HS p Hp) as [Hx Hy]. set (m := MC k F (repeat 1 k) true false).
  assert (HC : length (mc_cw m) = mc_states m) by apply repeat_length.
  assert (EL : forall a b, (a < k)%nat -> t_loss (mc_task k F (get1 (mc_cw m))) a b = t_loss (mc_task k F (fun _ => 1)) a b).
  { intros a b Ha. cbn [t_loss mc_task]. destruct (a =? b)%nat; [reflexivity|]. unfold get1, m. cbn [mc_cw]. apply nth_repeat_lt || (apply (repeat_spec k 1), nth_In; rewrite repeat_length; exact Ha). }
  split.
  - destruct (mc_implements m (fst p) (snd p) eq_refl Hx Hy HC) as [A [B D]]. split; [exact A|]. split; [rewrite <- EL by exact Hy; exact B|].
    intros y' L'. destruct (D y' L') as [D1 [D2 D3]]. split; [exact D1|]. split; [exact D2|]. rewrite <- EL by exact Hy. exact D3.
  - intros w Hw. destruct (mc_exact_laug m (fst p) (snd p) w eq_refl Hx Hy HC Hw) as [yh [A [B D]]]. exists yh. split; [exact A|]. split; [exact B|].
    intros y' L'. rewrite <- !EL by exact Hy. exact (D y' L').
Qed.
Lemma svm_close k F C S w v e1 e2 : 0 <= C -> S <> [] -> Forall (fun p => length (fst p) = F /\ (snd p < k)%nat) S ->
  svm_minimal k F (C * ofN 100 * ofN (length S)) (map plus_one S) w e1 -> near_minimal (mc_task k F (fun _ => 1)) (k * F) C S v e2 ->
  normsq (vsub (vscale (/ ofN 100) w) v) <= ofN 4 * (e1 / (ofN 100 * ofN 100) + e2).
Proof.
  intros HC HN HS H1 H2.
  assert (Hk : (0 < k)%nat). { destruct S as [|p S]; [contradiction|]. pose proof (Forall_inv HS) as [_ Hp]. lia. }
  apply (svm_same k F C S w e1 HN) in H1.
  - exact (near_close _ _ _ C S _ _ _ _ HC (mc_oracle k F S Hk HS) H1 H2).
  - eapply Forall_impl; [|exact HS]. intros p Hp. apply Hp.
Qed.

(** ** predictions *)
Lemma F2_length {A B} (R : A -> B -> Prop) l r : Forall2 R l r -> length l = length r.
Proof. induction 1; cbn; congruence. Qed.
Lemma ofN_inj a b : ofN a = ofN b -> a = b.
Proof.
  assert (Q : forall p q, (p < q)%nat -> ofN p <> ofN q).
  { intros p q H E. assert (P : 0 < ofN (q - p)) by (apply ofN_pos; lia).
    assert (E2 : ofN q = ofN p + ofN (q - p)) by (rewrite <- ofN_plus; f_equal; lia). rewrite E2 in E.
    assert (Z : ofN (q - p) = 0) by (transitivity (ofN p + ofN (q - p) - ofN p); [ring|rewrite <- E; ring]).
    rewrite Z in P. apply Qclt_not_eq in P. congruence. }
  intros E. destruct (Nat.lt_trichotomy a b) as [H|[H|H]]; [exfalso; exact (Q a b H E)|exact H|exfalso; exact (Q b a H (eq_sym E))].
Qed.
Section Predict.
Variables (sv : svm_multiclass) (k F : nat) (w : list Qc).
Hypothesis HC : svm_classifies sv k F.
Hypothesis Hk : (0 < k)%nat.
Lemma raw_table X : (2 <= length X)%nat ->
  ms_raw sv w X = Table (sv_classify sv w (combine X (repeat 1%nat (length X)))) /\
  Forall2 (svm_line k F w) X (sv_classify sv w (combine X (repeat 1%nat (length X)))).
Proof.
  intros HX. unfold ms_raw. pose proof (HC w (combine X (repeat 1%nat (length X)))) as H. set (rows := sv_classify sv w (combine X (repeat 1%nat (length X)))) in *. clearbody rows.
  assert (HF : Forall2 (svm_line k F w) X rows).
  { revert rows H. clear HX. induction X as [|x X IH]; intros rows H; cbn in H; inversion H; subst; constructor; [assumption|apply IH; assumption]. }
  split; [|exact HF]. pose proof (F2_length _ _ _ HF) as HL. destruct rows as [|r1 [|r2 rows]]; [cbn in HL; lia|cbn in HL; lia|].
  unfold loadtxt. assert (E : forallb (fun r => (length r =? 1)%nat) (r1 :: r2 :: rows) = false).
  { destruct X as [|x X']; [discriminate|]. inversion HF as [|? ? ? ? H1 H2]; subst. destruct H1 as [y [_ [_ ->]]]. cbn [forallb length]. rewrite tab1_length.
    destruct k as [|k']; [lia|]. reflexivity. }
  rewrite E. reflexivity.
Qed.
Lemma predict_spec X : (2 <= length X)%nat -> exists cls, ms_predict sv w X = Ok (map ofN cls) /\
  Forall2 (fun x s => (s < k)%nat /\ forall t, (t < k)%nat -> class_score F w x t <= class_score F w x s) X cls /\
  ms_decision_function sv w X = Ok (map (fun x => tab1 k (class_score F w x)) X).
Proof.
  intros HX. unfold ms_predict, ms_decision_function. destruct (raw_table X HX) as [-> HF].
  set (rows := sv_classify sv w (combine X (repeat 1%nat (length X)))) in *. clearbody rows. clear HX.
  induction HF as [|x r X rows H _ IH].
  - exists []. split; [reflexivity|]. split; [constructor|reflexivity].
  - destruct IH as [cls [E1 [E2 E3]]]. destruct H as [y [Hy [B ->]]]. exists ((y - 1)%nat :: cls). injection E1 as E1. injection E3 as E3. split; [|split].
    + cbn [map]. rewrite E1. do 2 f_equal. change (get1 (ofN y :: tab1 k (class_score F w x)) 0) with (ofN y).
      destruct y as [|y]; [lia|]. rewrite Nat.sub_succ, Nat.sub_0_r, ofN_S. ring.
    + constructor; [|exact E2]. split; [lia|]. intros t Ht. specialize (B (S t) ltac:(lia)). rewrite Nat.sub_succ, Nat.sub_0_r in B. exact B.
    + cbn [map tl]. rewrite E3. reflexivity.
Qed.
Lemma predict_single x : ms_predict sv w [x] = Err IndexError /\ ms_decision_function sv w [x] = Err IndexError.
Proof.
  unfold ms_predict, ms_decision_function, ms_raw. cbn [length repeat combine]. pose proof (HC w [(x, 1%nat)]) as H.
  inversion H as [|? r ? rest H1 H2]; subst. inversion H2; subst. split; reflexivity.
Qed.
Lemma predict_none : ms_predict sv w [] = Err IndexError.
Proof. unfold ms_predict, ms_raw. cbn [length repeat combine]. pose proof (HC w []) as H. inversion H. reflexivity. Qed.
Lemma scaled_score x s : class_score F (vscale (/ ofN 100) w) x s = / ofN 100 * class_score F w x s.
Proof. unfold class_score. rewrite <- sumn_mult_l. apply sumn_ext. intros j _. rewrite get1_vscale. ring. Qed.
Lemma score_spec X y : (2 <= length X)%nat -> length y = length X -> exists cls, ms_predict sv w X = Ok (map ofN cls) /\ length cls = length X /\
  ms_score sv w X y = Ok (ofN (length (filter (fun q => fst q =? snd q)%nat (combine y cls))) / ofN (length X)).
Proof.
  intros HX HY. destruct (predict_spec X HX) as [cls [E1 [E2 _]]]. pose proof (F2_length _ _ _ E2) as HL. exists cls. split; [exact E1|]. split; [congruence|].
  unfold ms_score. rewrite E1. cbn [bind]. rewrite map_length, HY, HL, Nat.eqb_refl. cbn [ensure bind]. do 3 f_equal.
  clear. revert cls. induction y as [|a y IH]; intros [|b cls]; cbn; [reflexivity|reflexivity|reflexivity|].
  assert (E : Qceqb (ofN a) (ofN b) = (a =? b)%nat).
  { destruct (Nat.eqb_spec a b) as [->|N]; [destruct (Qceqb_spec (ofN b) (ofN b)); congruence|].
    destruct (Qceqb_spec (ofN a) (ofN b)); [exfalso; apply N, ofN_inj; assumption|reflexivity]. }
  rewrite E. destruct (a =? b)%nat; cbn; rewrite IH; reflexivity.
Qed.
(** the class both programs predict when one class is best *)
Lemma same_prediction X i s : (2 <= length X)%nat -> (i < length X)%nat -> length (nth i X []) = F -> length w = (k * F)%nat -> (s < k)%nat ->
  (forall t, (t < k)%nat -> t <> s -> class_score F w (nth i X []) t < class_score F w (nth i X []) s) ->
  (exists ps, ms_predict sv w X = Ok ps /\ length ps = length X /\ nth i ps 0 = ofN s) /\
  mc_inference (MC k F (repeat 1 k) true false) (nth i X []) (vscale (/ ofN 100) w) = Ok s.
Proof.
  intros HX Hi HF HW Hs HB. split.
  - destruct (predict_spec X HX) as [cls [E1 [E2 _]]]. exists (map ofN cls). split; [exact E1|]. pose proof (F2_length _ _ _ E2) as HL.
    split; [rewrite map_length; congruence|]. rewrite (nth_map_in _ _ _ O) by lia. f_equal.
    assert (Q : forall (l : list (list Qc)) (c : list nat) j, Forall2 (fun x s => (s < k)%nat /\ forall t, (t < k)%nat -> class_score F w x t <= class_score F w x s) l c -> (j < length l)%nat ->
      (nth j c O < k)%nat /\ forall t, (t < k)%nat -> class_score F w (nth j l []) t <= class_score F w (nth j l []) (nth j c O)).
    { intros l c j HH. revert j. induction HH; intros [|j] Hj; cbn in Hj; try lia; [assumption|cbn [nth]; apply IHHH; lia]. }
    destruct (Q X cls i E2 Hi) as [Q1 Q2]. destruct (Nat.eq_dec (nth i cls O) s) as [E|N]; [exact E|]. exfalso.
    pose proof (HB _ Q1 N) as B1. pose proof (Q2 s Hs) as B2. apply Qclt_not_le in B1. contradiction.
  - set (m := MC k F (repeat 1 k) true false). destruct (mc_exact_inference m (fun _ => 1) (nth i X []) (vscale (/ ofN 100) w) HF Hk) as [yp [E [L B]]].
    + rewrite vscale_length. exact HW.
    + cbn [sm_inference mc_smodel] in E. change (mc_inference m (nth i X []) (vscale (/ ofN 100) w) = Ok yp) in E. rewrite E. f_equal.
      destruct (Nat.eq_dec yp s) as [Q|N]; [exact Q|]. exfalso. cbn [t_label mc_task] in L, B. change (mc_states m) with k in *. change (mc_features m) with F in *.
      specialize (B s Hs). cbn [t_feat mc_task] in B. rewrite !dot_class_feature in B by (try rewrite vscale_length; assumption).
      rewrite !Qcmult_1_l, !scaled_score in B. pose proof (HB _ L N) as B1.
      assert (P : 0 < / ofN 100) by (vm_compute; reflexivity). apply (Qclt_not_le _ _ B1).
      apply Qcmult_lt_0_le_reg_r with (z := / ofN 100); [exact P|]. rewrite !(Qcmult_comm _ (/ ofN 100)). exact B.
Qed.
End Predict.

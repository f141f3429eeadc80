From Verif Require Import Model.Loss Spec.Energy Spec.LossSpec Proofs.Arrays Proofs.EnergyProofs.

Lemma mapM_ok {A B} (f : A -> res B) (g : A -> B) l :
  (forall a, In a l -> f a = Ok (g a)) -> mapM f l = Ok (map g l).
Proof.
  induction l; intro H; simpl; auto. rewrite H by (simpl; auto). simpl.
  rewrite IHl by (intros; apply H; simpl; auto). reflexivity.
Qed.
Lemma mapM_err {A B} (f : A -> res B) (e : exn) l :
  (forall a, In a l -> (exists b, f a = Ok b) \/ f a = Err e) -> (exists a, In a l /\ f a = Err e) ->
  mapM f l = Err e.
Proof.
  induction l; intros H [a0 [Hin E]]; [destruct Hin|]. simpl.
  destruct (H a (or_introl eq_refl)) as [[b Hb]|Hb]; rewrite Hb; simpl; auto.
  rewrite IHl; auto.
  - intros; apply H; simpl; auto.
  - destruct Hin as [->|Hin]; [congruence|eauto].
Qed.
Lemma mapM_length {A B} (f : A -> res B) l r : mapM f l = Ok r -> length r = length l.
Proof.
  revert r; induction l; simpl; intros r H. inv_ok; reflexivity.
  inv_ok. simpl. f_equal. eauto.
Qed.
Lemma mapM_nth {A B} (f : A -> res B) l r i da db : mapM f l = Ok r -> (i < length l)%nat ->
  f (nth i l da) = Ok (nth i r db).
Proof.
  revert r i; induction l; simpl; intros r i H Hi. lia.
  inv_ok. destruct i; simpl; auto. apply IHl; auto. lia.
Qed.
Lemma mapM_in {A B} (f : A -> res B) l r b : mapM f l = Ok r -> In b r -> exists a, In a l /\ f a = Ok b.
Proof.
  revert r; induction l; simpl; intros r H Hi.
  - inv_ok. destruct Hi.
  - inv_ok. destruct Hi as [<-|Hi]; [eauto|]. destruct (IHl _ Hk0 Hi) as [a0 [? ?]]. eauto.
Qed.

Lemma class_weights_ok cw y : Forall (fun s => (s < length cw)%nat) y ->
  class_weights cw y = Ok (map (get1 cw) y).
Proof.
  intro H. unfold class_weights. apply mapM_ok. intros a Ha. rewrite Forall_forall in H.
  apply index_ok. auto.
Qed.

Lemma loss_weighted n k cw y y' : length cw = k -> labelling n k y -> length y' = n ->
  loss (Some cw) y y' = Ok (hamming n (get1 cw) (lab y) (lab y')).
Proof.
  intros Hc [HL HF] HL'. unfold loss. rewrite class_weights_ok by (rewrite Hc; exact HF).
  cbn [bind]. unfold mismatch. rewrite HL, HL', Nat.eqb_refl. cbn [bind]. f_equal.
  unfold hamming. rewrite lsum_get, zipw_length by (rewrite map_length, zipw_length; congruence).
  rewrite map_length, HL. apply sumn_ext. intros i Hi. unfold get1 at 1.
  rewrite (zipw_nth _ _ _ _ 0 0) by (rewrite map_length, ?zipw_length; lia).
  rewrite (zipw_nth _ _ _ _ O O) by lia.
  rewrite (nth_map_in _ _ _ O) by lia. unfold lab. destruct (Nat.eqb_spec (nth i y O) (nth i y' O)); simpl; unfold ind; ring.
Qed.
Lemma loss_unweighted n y y' : length y = n -> length y' = n ->
  loss None y y' = Ok (hamming n (fun _ => 1) (lab y) (lab y')).
Proof.
  intros HL HL'. unfold loss, mismatch. rewrite HL, HL', Nat.eqb_refl. cbn [bind]. f_equal.
  unfold hamming. rewrite lsum_get, zipw_length by congruence. rewrite HL.
  apply sumn_ext. intros i Hi. unfold get1.
  rewrite (zipw_nth _ _ _ _ O O) by lia. unfold lab.
  destruct (Nat.eqb_spec (nth i y O) (nth i y' O)); reflexivity.
Qed.
Lemma max_loss_weighted n k cw y : length cw = k -> labelling n k y ->
  max_loss (Some cw) y = Ok (sumn n (fun i => get1 cw (lab y i))).
Proof.
  intros Hc [HL HF]. unfold max_loss. rewrite class_weights_ok by (rewrite Hc; exact HF).
  cbn [bind]. f_equal. rewrite (lsum_map_sumn O), HL. reflexivity.
Qed.
Lemma continuous_loss_weighted n k cw y m : length cw = k -> labelling n k y -> mrows m = n -> mcols m = k ->
  continuous_loss (Some cw) y m = Ok (sumn n (fun i => get1 cw (lab y i) * (1 - mget m i (lab y i)))).
Proof.
  intros Hc [HL HF] Hr Hm. unfold continuous_loss. rewrite Hr, Hm, HL, Nat.leb_refl.
  assert (F' := HF). apply forallb_lt_Forall in F'. rewrite F'. cbn [andb ensure bind].
  rewrite class_weights_ok by (rewrite Hc; exact HF). cbn [bind]. f_equal.
  rewrite lsum_get, zipw_length by (rewrite map_length, tab1_length; congruence).
  rewrite map_length, HL. apply sumn_ext. intros i Hi. unfold get1 at 1.
  rewrite (zipw_nth _ _ _ _ 0 0) by (rewrite map_length, ?tab1_length; lia).
  rewrite (nth_map_in _ _ _ O) by lia.
  fold (get1 (tab1 n (fun i0 => 1 - mget m i0 (nth i0 y O))) i). rewrite get1_tab1 by exact Hi. reflexivity.
Qed.

(** hamming facts *)
Lemma hamming_nonneg n c y y' : (forall i, (i < n)%nat -> 0 <= c (y i)) -> 0 <= hamming n c y y'.
Proof.
  intro H. apply sumn_nonneg. intros i Hi. destruct (y i =? y' i)%nat; auto. apply Qcle_refl.
Qed.
Lemma hamming_le n c y y' : (forall i, (i < n)%nat -> 0 <= c (y i)) -> hamming n c y y' <= sumn n (fun i => c (y i)).
Proof.
  intro H. apply sumn_le. intros i Hi. destruct (y i =? y' i)%nat; auto. apply Qcle_refl.
Qed.
Lemma hamming_refl n c y : hamming n c y y = 0.
Proof. apply sumn_zero. intros i _. rewrite Nat.eqb_refl. reflexivity. Qed.
Lemma hamming_zero n c y y' : (forall i, (i < n)%nat -> 0 < c (y i)) -> hamming n c y y' = 0 ->
  forall i, (i < n)%nat -> y i = y' i.
Proof.
  intros H E i Hi. assert (Z := sumn_eq0 n (fun i => if (y i =? y' i)%nat then 0 else c (y i))).
  specialize (Z ltac:(intros j Hj; cbv beta; destruct (y j =? y' j)%nat; [apply Qcle_refl|apply Qclt_le_weak, H, Hj]) E i Hi).
  cbv beta in Z. destruct (Nat.eqb_spec (y i) (y' i)); auto. specialize (H i Hi). rewrite Z in H. qclra.
Qed.

(** ** loss augmentation *)
Lemma loss_augment_ok u y cw n k : mrows u = n -> mcols u = k -> length cw = k -> labelling n k y ->
  exists u', loss_augment_unaries u y cw = Ok u' /\ mat_ok u' /\ mrows u' = n /\ mcols u' = k /\
    forall i s, (i < n)%nat -> (s < k)%nat ->
      mget u' i s = mget u i s + if (lab y i =? s)%nat then 0 else get1 cw (lab y i).
Proof.
  intros Hr Hm Hc Hy. unfold loss_augment_unaries. rewrite Hr, Hm.
  rewrite (mapM_ok _ (fun i => tab1 k (fun s => mget u i s + if (lab y i =? s)%nat then 0 else get1 cw (lab y i)))).
  - cbn [bind]. eexists. split; [reflexivity|].
    change (map _ (seq 0 n)) with (tab2 n k (fun i s => mget u i s + if (lab y i =? s)%nat then 0 else get1 cw (lab y i))).
    split; [apply mtab_ok|]. split; [reflexivity|]. split; [reflexivity|].
    intros i s Hi Hs. unfold mget at 1. simpl. rewrite get2_tab2 by assumption. reflexivity.
  - intros i Hi. apply in_seq in Hi. destruct (Hy) as [HL HF].
    apply mapM_ok. intros s Hs. unfold cindex.
    rewrite (nth_error_nth' y O) by lia. cbn [bind]. fold (lab y i).
    rewrite Nat.eqb_sym. destruct (lab y i =? s)%nat eqn:E.
    + f_equal. ring.
    + assert (lab y i < k)%nat by (eapply labelling_lt; eauto; lia).
      rewrite (nth_error_nth' cw 0) by lia. cbn [bind]. reflexivity.
Qed.

Lemma score_augment n edges U U' P c y y' :
  (forall i s, (i < n)%nat -> U' i s = U i s + if (y i =? s)%nat then 0 else c (y i)) ->
  score n edges U' P y' = score n edges U P y' + hamming n c y y'.
Proof.
  intro H. unfold score, hamming.
  rewrite (sumn_ext n (fun i => U' i (y' i)) (fun i => U i (y' i) + if (y i =? y' i)%nat then 0 else c (y i)))
    by (intros i Hi; apply H; exact Hi).
  rewrite sumn_plus. ring.
Qed.
Lemma score_ext n edges U U' P P' y :
  graph_edges n edges ->
  (forall i, (i < n)%nat -> U i (y i) = U' i (y i)) ->
  (forall e a b, (e < length edges)%nat -> (a < n)%nat -> (b < n)%nat -> P e (y a) (y b) = P' e (y a) (y b)) ->
  score n edges U P y = score n edges U' P' y.
Proof.
  intros Hg H1 H2. unfold score. f_equal; apply sumn_ext; auto.
  intros e He. destruct (graph_edges_nth _ _ e Hg He). apply H2; auto.
Qed.

Lemma augmented_potentials U y cw n k edges P :
  mrows U = n -> mcols U = k -> length cw = k -> labelling n k y ->
  exists U', loss_augment_unaries U y cw = Ok U' /\ mrows U' = n /\ mcols U' = k /\
    forall y', labelling n k y' ->
      exists l, loss (Some cw) y y' = Ok l /\
        score n edges (mget U') P (lab y') = score n edges (mget U) P (lab y') + l.
Proof.
  intros Hr Hm Hc Hy. destruct (loss_augment_ok U y cw n k Hr Hm Hc Hy) as [U' [E [_ [R [C G]]]]].
  exists U'. split; [exact E|]. split; [exact R|]. split; [exact C|]. intros y' Hy'.
  exists (hamming n (get1 cw) (lab y) (lab y')). split; [apply (loss_weighted n k); auto; apply Hy'|].
  unfold score, hamming.
  rewrite (sumn_ext n (fun i => mget U' i (lab y' i)) (fun i => mget U i (lab y' i) + if (lab y i =? lab y' i)%nat then 0 else get1 cw (lab y i))).
  - rewrite sumn_plus. ring.
  - intros i Hi. apply G; auto. eapply labelling_lt; eauto.
Qed.

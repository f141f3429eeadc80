From Verif Require Import Model.Score Spec.Energy Spec.LossSpec Proofs.Arrays Proofs.EnergyProofs Proofs.LossProofs.

Lemma loss_price cw y y' : covers cw y -> length y' = length y ->
  loss cw y y' = Ok (hamming (length y) (price cw) (lab y) (lab y')).
Proof.
  intros Hc HL. destruct cw as [c|].
  - apply (loss_weighted (length y) (length c) c y y'); auto. split; auto.
  - apply loss_unweighted; auto.
Qed.
Lemma loss_length cw y y' : covers cw y -> length y' <> length y -> loss cw y y' = Err ValueError.
Proof.
  intros Hc HL. assert (E : (length y =? length y')%nat = false) by (apply Nat.eqb_neq; auto).
  destruct cw as [c|]; simpl; unfold mismatch; rewrite E; [|reflexivity].
  rewrite class_weights_ok by exact Hc. reflexivity.
Qed.
Lemma index_err {A} (l : list A) i : (length l <= i)%nat -> index l i = Err IndexError.
Proof. intro H. unfold index. rewrite (proj2 (nth_error_None l i)) by exact H. reflexivity. Qed.
Lemma loss_uncovered c y y' : ~ covers (Some c) y -> loss (Some c) y y' = Err IndexError /\ max_loss (Some c) y = Err IndexError.
Proof.
  intro H. assert (E : class_weights c y = Err IndexError).
  { unfold class_weights. apply mapM_err.
    - intros a _. destruct (Nat.lt_ge_cases a (length c)) as [L|L]; [left; rewrite (index_ok c a 0 L); eauto|right; apply index_err; exact L].
    - simpl in H. assert (D : forall l, ~ Forall (fun s => (s < length c)%nat) l -> exists a, In a l /\ (length c <= a)%nat).
      { induction l as [|a l IH]; intro N; [exfalso; apply N; constructor|].
        destruct (Nat.lt_ge_cases a (length c)) as [L|L]; [|exists a; simpl; auto].
        destruct IH as [b [B1 B2]]; [intro F; apply N; constructor; auto|]. exists b; simpl; auto. }
      destruct (D y H) as [a [A1 A2]]. exists a. split; auto. apply index_err. exact A2. }
  simpl. rewrite E. auto.
Qed.
Lemma max_loss_price cw y : covers cw y -> max_loss cw y = Ok (sumn (length y) (fun i => price cw (lab y i))).
Proof.
  intros Hc. destruct cw as [c|].
  - apply (max_loss_weighted (length y) (length c) c y); auto. split; auto.
  - simpl. f_equal. rewrite sumn_const. ring.
Qed.
Lemma continuous_loss_price cw y m k : covers cw y -> labelling (length y) k y -> mrows m = length y -> mcols m = k ->
  continuous_loss cw y m = Ok (sumn (length y) (fun i => price cw (lab y i) * (1 - mget m i (lab y i)))).
Proof.
  intros Hc [_ Hy] Hr Hm. unfold continuous_loss. rewrite Hr, Hm, Nat.leb_refl.
  assert (F' := Hy). apply forallb_lt_Forall in F'. rewrite F'. cbn [andb ensure bind].
  destruct cw as [c|].
  - rewrite class_weights_ok by exact Hc. cbn [bind]. f_equal.
    rewrite lsum_get, zipw_length by (rewrite map_length, tab1_length; congruence).
    rewrite map_length. apply sumn_ext. intros i Hi. unfold get1 at 1.
    rewrite (zipw_nth _ _ _ _ 0 0) by (rewrite map_length, ?tab1_length; lia).
    rewrite (nth_map_in _ _ _ O) by lia.
    fold (get1 (tab1 (length y) (fun i0 => 1 - mget m i0 (nth i0 y O))) i). rewrite get1_tab1 by exact Hi. reflexivity.
  - f_equal. rewrite lsum_tab1. apply sumn_ext. intros. simpl. unfold lab. ring.
Qed.

Lemma price_at (cw : option (list Qc)) (P : Qc -> Prop) y i : (forall c s, cw = Some c -> (s < length c)%nat -> P (get1 c s)) -> P 1 ->
  covers cw y -> (i < length y)%nat -> P (price cw (lab y i)).
Proof.
  intros H H1 Hc Hi. destruct cw as [c|]; simpl; auto. apply H; auto. simpl in Hc. unfold lab.
  apply Forall_nth_lt; auto.
Qed.

Definition nonneg_weights (cw : option (list Qc)) : Prop := forall c s, cw = Some c -> (s < length c)%nat -> 0 <= get1 c s.
Definition pos_weights (cw : option (list Qc)) : Prop := forall c s, cw = Some c -> (s < length c)%nat -> 0 < get1 c s.

Lemma loss_laws cw y y' : covers cw y -> length y' = length y ->
  exists l m, loss cw y y' = Ok l /\ max_loss cw y = Ok m /\ loss cw y y = Ok 0 /\
    ((forall c s, cw = Some c -> (s < length c)%nat -> 0 <= get1 c s) -> 0 <= l /\ l <= m) /\
    ((forall c s, cw = Some c -> (s < length c)%nat -> 0 < get1 c s) -> l = 0 -> y = y').
Proof.
  intros Hc HL. eexists. eexists. split; [apply loss_price; auto|]. split; [apply max_loss_price; auto|].
  split; [rewrite loss_price, hamming_refl by auto; reflexivity|]. split.
  - intro H. assert (N : forall i, (i < length y)%nat -> 0 <= price cw (lab y i)).
    { intros i Hi. apply (price_at cw (fun q => 0 <= q)); auto. qclra. }
    split; [apply hamming_nonneg|apply hamming_le]; auto.
  - intros H E. assert (N : forall i, (i < length y)%nat -> 0 < price cw (lab y i)).
    { intros i Hi. apply (price_at cw (fun q => 0 < q)); auto. qclra. }
    apply (nth_ext _ _ O O); auto. intros i Hi. exact (hamming_zero _ _ _ _ N E i Hi).
Qed.

Lemma continuous_one_hot cw y y' k : covers cw y -> labelling (length y) k y -> labelling (length y) k y' ->
  exists m, one_hot k y' = Ok m /\ continuous_loss cw y m = loss cw y y'.
Proof.
  intros Hc Hy [HL Hy']. rewrite one_hot_ok by exact Hy'. eexists. split; [reflexivity|].
  rewrite (continuous_loss_price cw y _ k), loss_price by auto. f_equal.
  apply sumn_ext. intros i Hi. assert (lab y i < k)%nat by (eapply labelling_lt; eauto).
  unfold mget, mtab. cbn [mdat]. rewrite get2_tab2 by (rewrite ?HL; auto).
  unfold lab. destruct (nth i y O =? nth i y' O)%nat; unfold ind; ring.
Qed.

Lemma continuous_bounds cw y k m : covers cw y -> labelling (length y) k y -> mrows m = length y -> mcols m = k ->
  (forall c s, cw = Some c -> (s < length c)%nat -> 0 <= get1 c s) ->
  (forall i s, (i < length y)%nat -> (s < k)%nat -> 0 <= mget m i s) ->
  (forall i, (i < length y)%nat -> sumn k (mget m i) = 1) ->
  exists l mx, continuous_loss cw y m = Ok l /\ max_loss cw y = Ok mx /\ 0 <= l /\ l <= mx.
Proof.
  intros Hc Hy Hr Hm Hw H0 H1. eexists. eexists. split; [apply (continuous_loss_price cw y m k); auto|].
  split; [apply max_loss_price; auto|].
  assert (B : forall i, (i < length y)%nat -> 0 <= price cw (lab y i) /\ 0 <= mget m i (lab y i) /\ mget m i (lab y i) <= 1).
  { intros i Hi. assert (lab y i < k)%nat by (eapply labelling_lt; eauto). split; [|split; [apply H0; auto|]].
    - apply (price_at cw (fun q => 0 <= q)); auto. qclra.
    - rewrite <- (H1 i Hi). apply (sumn_term_le k (mget m i) (lab y i)); auto. }
  split.
  - apply sumn_nonneg. intros i Hi. destruct (B i Hi) as [B1 [B2 B3]]. apply Qcmult_nonneg; [exact B1|qclra].
  - apply sumn_le. intros i Hi. destruct (B i Hi) as [B1 [B2 B3]].
    assert (0 <= price cw (lab y i) * mget m i (lab y i)) by (apply Qcmult_nonneg; auto).
    replace (price cw (lab y i) * (1 - mget m i (lab y i))) with (price cw (lab y i) - price cw (lab y i) * mget m i (lab y i)) by ring.
    qclra.
Qed.

(** ** score *)
Lemma batch_loss_ok cw Y P :
  Forall2 (fun y p => covers cw y /\ length p = length y) Y P ->
  exists ls ms, batch_loss cw Y P = Ok ls /\ mapM (max_loss cw) Y = Ok ms /\
    (nonneg_weights cw -> 0 <= lsum ls /\ lsum ls <= lsum ms) /\
    (pos_weights cw -> lsum ls = 0 -> Y = P) /\ (Y = P -> lsum ls = 0).
Proof.
  induction 1 as [|y p Y P [Hc HL] F [ls [ms [E1 [E2 [B [Z R]]]]]]].
  - exists [], []. split; [reflexivity|]. split; [reflexivity|]. split; [intros _; simpl; split; qclra|]. auto.
  - destruct (loss_laws cw y p Hc HL) as [l [m [L1 [L2 [L3 [L4 L5]]]]]].
    exists (l :: ls), (m :: ms). unfold batch_loss in *. simpl. rewrite L1, E1, L2, E2. cbn [bind].
    split; [reflexivity|]. split; [reflexivity|]. split; [|split].
    + intro N. destruct (B N), (L4 N). split; qclra.
    + intros N E. assert (NN : nonneg_weights cw) by (intros c s H1 H2; apply Qclt_le_weak, N; auto).
      destruct (B NN), (L4 NN). assert (l = 0) by (apply Qcle_antisym; qclra).
      assert (lsum ls = 0) by (apply Qcle_antisym; qclra). f_equal; auto.
    + intro E. injection E as -> ->. rewrite L3 in L1. injection L1 as <-. rewrite R by reflexivity. ring.
Qed.

Lemma score_bounds cw Y P :
  Forall2 (fun y p => covers cw y /\ length p = length y) Y P -> nonneg_weights cw ->
  exists ms, mapM (max_loss cw) Y = Ok ms /\ 0 <= lsum ms /\
    (lsum ms = 0 -> ssvm_score cw Y P = Err NonFinite) /\
    (0 < lsum ms -> exists s, ssvm_score cw Y P = Ok s /\ 0 <= s /\ s <= 1 /\ (pos_weights cw -> (s = 1 <-> Y = P))).
Proof.
  intros F N. destruct (batch_loss_ok cw Y P F) as [ls [ms [E1 [E2 [B [Z R]]]]]]. destruct (B N) as [B1 B2].
  exists ms. split; auto. split; [qclra|]. unfold ssvm_score. rewrite E1, E2. cbn [bind]. split.
  - intro H. destruct (Qceqb_spec (lsum ms) 0); [reflexivity|congruence].
  - intro H. destruct (Qceqb_spec (lsum ms) 0) as [E|E]; [rewrite E in H; qclra|].
    assert (D : lsum ls / lsum ms * lsum ms = lsum ls) by (field; exact E).
    set (q := lsum ls / lsum ms) in *.
    assert (Q0 : 0 <= q) by (apply Qcnot_lt_le; intro K; assert (q * lsum ms < 0) by qcnra; qclra).
    assert (Q1 : q <= 1) by (apply Qcnot_lt_le; intro K; assert (lsum ms < q * lsum ms) by qcnra; qclra).
    exists (1 - q). split; [reflexivity|]. split; [qclra|]. split; [qclra|].
    intro PW. split.
    + intro K. apply Z; auto. rewrite <- D. assert (q = 0) by (transitivity (1 - (1 - q)); [ring|rewrite K; ring]).
      rewrite H0. ring.
    + intro K. apply R in K. assert (q = 0) by (unfold q; rewrite K; field; exact E). rewrite H0. ring.
Qed.

Lemma missing_predictions_refuted : exists (Y P : list (list nat)), length P <> length Y /\ ssvm_score None Y P = Ok 1.
Proof.
  exists [[0]; [1]]%nat, [[0]]%nat. split; [discriminate|].
  unfold ssvm_score. simpl. f_equal. 
Qed.

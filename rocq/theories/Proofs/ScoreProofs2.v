(** Default class weights; the score of LatentSSVM. *)
From Verif Require Import Model.Score Model.LatentSSVM Spec.Energy Spec.LossSpec Proofs.Arrays Proofs.EnergyProofs Proofs.LossProofs Proofs.ScoreProofs.

Lemma get1_ones n s : (s < n)%nat -> get1 (repeat 1 n) s = 1.
Proof.
  intro H. unfold get1. apply (repeat_spec n 1 (nth s (repeat 1 n) 0)). apply nth_In. rewrite repeat_length. exact H.
Qed.
Lemma ones_price n y i : labelling (length y) n y -> (i < length y)%nat -> price (Some (repeat 1 n)) (lab y i) = price None (lab y i).
Proof.
  intros [_ H] Hi. cbn [price]. apply get1_ones. rewrite Forall_forall in H. apply H. unfold lab. apply nth_In. exact Hi.
Qed.
Lemma class_weights n : (exists c, set_class_weight n None = Ok (c, true) /\ length c = n /\
    (forall s, (s < n)%nat -> get1 c s = 1) /\
    forall y y', labelling (length y) n y -> loss (Some c) y y' = loss None y y' /\ max_loss (Some c) y = max_loss None y) /\
  (forall c, length c = n -> set_class_weight n (Some c) = Ok (c, false)) /\
  (forall c, length c <> n -> set_class_weight n (Some c) = Err ValueError).
Proof.
  split; [|split].
  - exists (repeat 1 n). split; [reflexivity|]. split; [apply repeat_length|]. split; [exact (get1_ones n)|]. intros y y' H.
    assert (HC : covers (Some (repeat 1 n)) y) by (destruct H as [_ H]; cbn [covers]; rewrite repeat_length; exact H).
    assert (HN : covers None y) by exact I. split.
    + destruct (Nat.eq_dec (length y') (length y)) as [E|E].
      * rewrite (loss_price _ y y' HC E), (loss_price None y y' HN E). f_equal. unfold hamming. apply sumn_ext. intros i Hi. rewrite (ones_price n y i H Hi). reflexivity.
      * rewrite (loss_length _ y y' HC E), (loss_length None y y' HN E). reflexivity.
    + rewrite (max_loss_price _ y HC), (max_loss_price None y HN). f_equal. apply sumn_ext. intros i Hi. exact (ones_price n y i H Hi).
  - intros c E. unfold set_class_weight. rewrite E, Nat.eqb_refl. reflexivity.
  - intros c E. unfold set_class_weight. apply Nat.eqb_neq in E. rewrite E. reflexivity.
Qed.

Lemma cccp_score_value {X Y} (m : lmodel X Y) w Xs Ys P losses mls : cccp_predict m w Xs = Ok P ->
  mapM (fun q => lm_base_loss m (fst q) (snd q)) (combine Ys P) = Ok losses -> mapM (lm_max_loss m) Ys = Ok mls ->
  (lsum mls = 0 -> cccp_score m w Xs Ys = Err NonFinite) /\ (lsum mls <> 0 -> cccp_score m w Xs Ys = Ok (1 - lsum losses / lsum mls)).
Proof.
  intros E1 E2 E3. unfold cccp_score. rewrite E1. cbn [bind]. rewrite E2. cbn [bind]. rewrite E3. cbn [bind].
  destruct (Qceqb_spec (lsum mls) 0) as [E|E]; split; intro H; congruence.
Qed.

(** The class weights and the validation score of image_segmentation.py. *)
From Coq Require Import Lia Permutation.
From Verif Require Import Base.Sums Proofs.Arrays Proofs.Scripts1.
From Verif Require Import Spec.Energy Spec.LossSpec Model.Scripts.

Lemma list_max_in l s : In s l -> (s <= list_max l)%nat.
Proof. intros H. pose proof (proj1 (list_max_le l (list_max l)) (Nat.le_refl _)) as Q. rewrite Forall_forall in Q. apply Q. exact H. Qed.
Lemma count_pos l s : In s l -> (count_occ Nat.eq_dec l s =? 0)%nat = false.
Proof. intros H. apply Nat.eqb_neq. apply (count_occ_In Nat.eq_dec) in H. lia. Qed.
Lemma count_none l s : ~ In s l -> (count_occ Nat.eq_dec l s =? 0)%nat = true.
Proof. intros H. apply Nat.eqb_eq. apply count_occ_not_In. exact H. Qed.
(** a sum over the elements of a list, class by class *)
Lemma lsum_by_class k f l : Forall (fun s => (s < k)%nat) l -> lsum (map f l) = sumn k (fun t => ofN (count_occ Nat.eq_dec l t) * f t).
Proof.
  induction 1 as [|s l Hs _ IH].
  - cbn [map lsum fold_right count_occ]. symmetry. apply sumn_zero. intros i _. rewrite ofN_0. ring.
  - cbn [map]. change (lsum (f s :: map f l)) with (f s + lsum (map f l)). rewrite IH, <- (sumn_pick' k s f Hs), <- sumn_plus. apply sumn_ext. intros t _.
    cbn [count_occ]. destruct (Nat.eq_dec s t) as [->|N].
    + rewrite Nat.eqb_refl. unfold ind. rewrite ofN_S. ring.
    + apply Nat.eqb_neq in N. rewrite N. unfold ind. ring.
Qed.
Section Weights.
Variable Y : list (list nat).
Let l := concat Y.
Let k := S (list_max l).
Hypothesis HN : l <> [].
Lemma nonempty_lists : (length Y =? 0)%nat = false /\ (length (concat Y) =? 0)%nat = false.
Proof.
  split; apply Nat.eqb_neq; intros H; apply length_zero_iff_nil in H; apply HN; unfold l; rewrite H; reflexivity.
Qed.
Lemma used_classes : forallb (fun c => negb (c =? 0)%nat) (bincount l) = true <-> (forall s, (s < k)%nat -> In s l).
Proof.
  unfold bincount. rewrite forallb_forall. split.
  - intros H s Hs. destruct (in_dec Nat.eq_dec s l) as [I|I]; [exact I|].
    specialize (H (count_occ Nat.eq_dec l s)). rewrite (count_none l s I) in H. discriminate H.
    apply in_map_iff. exists s. split; [reflexivity|]. apply in_seq. fold k. lia.
  - intros H c Hc. apply in_map_iff in Hc. destruct Hc as [s [<- Hs]]. apply in_seq in Hs. fold k in Hs.
    rewrite (count_pos l s) by (apply H; lia). reflexivity.
Qed.
Lemma class_weights_absent s : (s < list_max l)%nat -> ~ In s l -> segmentation_weights Y = Err NonFinite.
Proof.
  intros Hs HI. unfold segmentation_weights. destruct nonempty_lists as [-> ->]. cbn [negb ensure bind]. fold l.
  destruct (forallb (fun c => negb (c =? 0)%nat) (bincount l)) eqn:E; [|reflexivity].
  exfalso. apply HI. apply (proj1 used_classes E). unfold k. lia.
Qed.
Section Used.
Hypothesis HU : forall s, (s < k)%nat -> In s l.
Let cnt s := ofN (count_occ Nat.eq_dec l s).
Let Z := sumn k (fun s => 1 / cnt s).
Lemma cnt_pos s : (s < k)%nat -> 0 < cnt s.
Proof. intros H. unfold cnt. apply ofN_pos. apply count_occ_In. apply HU. exact H. Qed.
Lemma inv_pos s : (s < k)%nat -> 0 < 1 / cnt s.
Proof. intros H. pose proof (cnt_pos s H) as P. unfold Qcdiv. rewrite Qcmult_1_l. apply Qcinv_pos. exact P. Qed.
Lemma inverses : map (fun c => 1 / ofN c) (bincount l) = tab1 k (fun s => 1 / cnt s).
Proof. unfold bincount, tab1. rewrite map_map. reflexivity. Qed.
Lemma Z_pos : 0 < Z.
Proof.
  apply Qclt_le_trans with (1 / cnt 0).
  - apply inv_pos. unfold k. lia.
  - apply (sumn_term_le k (fun s => 1 / cnt s) 0%nat); [|unfold k; lia]. intros i Hi. apply Qclt_le_weak, inv_pos, Hi.
Qed.
Lemma class_weights_eq : segmentation_weights Y = Ok (tab1 k (fun s => 1 / cnt s * (ofN 21 / Z))).
Proof.
  unfold segmentation_weights. destruct nonempty_lists as [-> ->]. cbn [negb ensure bind]. fold l.
  rewrite (proj2 used_classes HU). cbn [ensure bind]. rewrite inverses, lsum_tab1. fold Z. unfold tab1. rewrite map_map. reflexivity.
Qed.
Lemma weight_count s : (s < k)%nat -> 1 / cnt s * (ofN 21 / Z) * cnt s = ofN 21 / Z.
Proof.
  intros H. pose proof (cnt_pos s H) as P1. pose proof Z_pos as P2. apply Qclt_not_eq in P1. apply Qclt_not_eq in P2.
  field. split; congruence.
Qed.
Lemma k_pos : 0 < ofN 21 / Z.
Proof. unfold Qcdiv. apply Qcmult_pos; [vm_compute; reflexivity|]. pose proof Z_pos as P. apply Qcinv_pos. exact P. Qed.
Lemma class_weights_spec : exists cw K, segmentation_weights Y = Ok cw /\ length cw = S (list_max l) /\ 0 < K /\ lsum cw = ofN 21 /\
  (forall s, (s < S (list_max l))%nat -> 0 < get1 cw s /\ get1 cw s * ofN (count_occ Nat.eq_dec l s) = K) /\
  (forall s, (s < S (list_max l))%nat -> hamming (length l) (get1 cw) (lab l) (fun _ => s) = ofN (list_max l) * K).
Proof.
  exists (tab1 k (fun s => 1 / cnt s * (ofN 21 / Z))), (ofN 21 / Z). fold k. split; [exact class_weights_eq|].
  split; [apply tab1_length|]. split; [exact k_pos|]. split.
  { rewrite lsum_tab1, sumn_mult_r. fold Z. pose proof Z_pos as P. apply Qclt_not_eq in P. field. congruence. }
  split.
  - intros s Hs. rewrite get1_tab1 by exact Hs. split; [apply Qcmult_pos; [apply inv_pos; exact Hs|exact k_pos]|]. apply weight_count. exact Hs.
  - intros s Hs. unfold hamming. set (cw := get1 (tab1 k (fun s => 1 / cnt s * (ofN 21 / Z)))).
    assert (E : sumn (length l) (fun i => if (lab l i =? s)%nat then 0 else cw (lab l i)) = lsum (map (fun a => if (a =? s)%nat then 0 else cw a) l)).
    { rewrite (lsum_map_sumn O). reflexivity. }
    rewrite E. rewrite (lsum_by_class k).
    2:{ apply Forall_forall. intros a Ha. unfold k. apply list_max_in in Ha. lia. }
    assert (E2 : sumn k (fun t => ofN (count_occ Nat.eq_dec l t) * (if (t =? s)%nat then 0 else cw t)) =
                 sumn k (fun t => (ofN 21 / Z) - ind (t =? s)%nat * (ofN 21 / Z))).
    { apply sumn_ext. intros t Ht. destruct (t =? s)%nat; unfold ind; [ring|]. unfold cw. rewrite get1_tab1 by exact Ht.
      fold (cnt t). rewrite Qcmult_comm, (weight_count t Ht). ring. }
    rewrite E2, sumn_minus, (sumn_pick k s (fun _ => ofN 21 / Z) Hs), sumn_const. unfold k. rewrite ofN_S. ring.
Qed.
End Used.
End Weights.
Lemma class_weights_void Y : In 255%nat (concat Y) -> (forall s, In s (concat Y) -> (s < 21)%nat \/ s = 255%nat) -> segmentation_weights Y = Err NonFinite.
Proof.
  intros H1 H2. apply (class_weights_absent Y) with (s := 21%nat).
  - intros E. rewrite E in H1. destruct H1.
  - apply list_max_in in H1. lia.
  - intros I. apply H2 in I. lia.
Qed.
Lemma class_weights_empty Y : concat Y = [] -> segmentation_weights Y = Err (if (length Y =? 0)%nat then ValueError else TypeError).
Proof. intros H. unfold segmentation_weights. rewrite H. destruct (length Y =? 0)%nat; reflexivity. Qed.

(** ** the score *)
Lemma filter_map {A B} (f : B -> bool) (g : A -> B) l : filter f (map g l) = map g (filter (fun a => f (g a)) l).
Proof. induction l as [|a l IH]; [reflexivity|]. cbn. destruct (f (g a)); cbn; rewrite IH; reflexivity. Qed.
Lemma mask_self {A} (f : A -> bool) l : map snd (filter fst (combine (map f l) l)) = filter f l.
Proof. induction l as [|a l IH]; [reflexivity|]. cbn. destruct (f a); cbn; rewrite IH; reflexivity. Qed.
Lemma mask_pairs {A B} (f : A -> bool) : forall (l : list A) (r : list B), length l = length r ->
  map snd (filter fst (combine (map f l) (combine l r))) = filter (fun q => f (fst q)) (combine l r).
Proof.
  induction l as [|a l IH]; intros [|b r] H; try discriminate; [reflexivity|]. cbn. injection H as H. destruct (f a); cbn; rewrite (IH r H); reflexivity.
Qed.
Lemma combine_seq : forall (t p : list nat), length t = length p -> combine t p = map (fun i => (lab t i, lab p i)) (seq 0 (length t)).
Proof.
  induction t as [|a t IH]; intros [|b p] H; try discriminate; [reflexivity|]. cbn [length combine seq map]. injection H as H.
  rewrite (IH p H), <- seq_shift, map_map. reflexivity.
Qed.
Lemma list_seq (t : list nat) : t = map (lab t) (seq 0 (length t)).
Proof. induction t as [|a t IH]; [reflexivity|]. cbn [length seq map]. rewrite IH at 1. rewrite <- seq_shift, map_map. reflexivity. Qed.
Section Score.
Variables (void : nat) (y_pred y_true : list (list nat)).
Let p := concat y_pred.
Let t := concat y_true.
Let kept := filter (fun i => negb (lab t i =? void)%nat) (seq 0 (length t)).
Lemma validation_score_spec : length p = length t -> kept <> [] ->
  validation_score void y_pred y_true = Ok (ofN (length (filter (fun i => (lab t i =? lab p i)%nat) kept)) / ofN (length kept)).
Proof.
  intros HL HK. unfold validation_score.
  assert (N : t <> []). { intros E. apply HK. unfold kept. rewrite E. reflexivity. }
  assert (N1 : (length y_true =? 0)%nat = false).
  { apply Nat.eqb_neq. intros H. apply length_zero_iff_nil in H. apply N. unfold t. rewrite H. reflexivity. }
  assert (N2 : (length y_pred =? 0)%nat = false).
  { apply Nat.eqb_neq. intros H. apply length_zero_iff_nil in H. apply N. apply length_zero_iff_nil. rewrite <- HL. unfold p. rewrite H. reflexivity. }
  rewrite N1, N2. cbn [negb andb ensure bind]. fold p t. set (keep := fun a => negb (a =? void)%nat).
  rewrite take_mask_ok by (rewrite map_length; congruence). cbn [bind].
  rewrite take_mask_ok by (rewrite map_length; reflexivity). cbn [bind].
  rewrite <- (mask_combine (map keep t) t p) by (rewrite map_length; congruence). rewrite mask_self, mask_pairs by congruence.
  assert (E : length (filter keep t) = length kept).
  { rewrite (list_seq t) at 1. rewrite filter_map, map_length. reflexivity. }
  rewrite E. assert (NK : (length kept =? 0)%nat = false) by (apply Nat.eqb_neq; intros H; apply length_zero_iff_nil in H; contradiction).
  rewrite NK. cbn [negb ensure bind]. do 3 f_equal.
  rewrite combine_seq by congruence. rewrite filter_map. cbn [fst]. fold kept. rewrite filter_map, map_length. reflexivity.
Qed.
Lemma validation_score_void : length p = length t -> kept = [] -> y_pred <> [] -> y_true <> [] ->
  validation_score void y_pred y_true = Err NonFinite.
Proof.
  intros HL HK N1 N2. unfold validation_score.
  assert (M1 : (length y_true =? 0)%nat = false) by (apply Nat.eqb_neq; intros H; apply length_zero_iff_nil in H; contradiction).
  assert (M2 : (length y_pred =? 0)%nat = false) by (apply Nat.eqb_neq; intros H; apply length_zero_iff_nil in H; contradiction).
  rewrite M1, M2. cbn [negb andb ensure bind]. fold p t. set (keep := fun a => negb (a =? void)%nat).
  rewrite take_mask_ok by (rewrite map_length; congruence). cbn [bind].
  rewrite take_mask_ok by (rewrite map_length; reflexivity). cbn [bind]. rewrite mask_self.
  assert (E : length (filter keep t) = length kept).
  { rewrite (list_seq t) at 1. rewrite filter_map, map_length. reflexivity. }
  rewrite E, HK. reflexivity.
Qed.
Lemma validation_score_refused : length p <> length t -> y_pred <> [] -> y_true <> [] -> validation_score void y_pred y_true = Err IndexError.
Proof.
  intros HL N1 N2. unfold validation_score.
  assert (M1 : (length y_true =? 0)%nat = false) by (apply Nat.eqb_neq; intros H; apply length_zero_iff_nil in H; contradiction).
  assert (M2 : (length y_pred =? 0)%nat = false) by (apply Nat.eqb_neq; intros H; apply length_zero_iff_nil in H; contradiction).
  rewrite M1, M2. cbn [negb andb ensure bind]. fold p t. unfold take_mask. rewrite map_length.
  assert (Q : (length t =? length p)%nat = false) by (apply Nat.eqb_neq; congruence). rewrite Q. reflexivity.
Qed.
End Score.

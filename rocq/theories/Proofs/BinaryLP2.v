(** Rounding and persistency for two labels. *)
From Verif Require Import Spec.BinaryLPSpec Proofs.Arrays Proofs.BinaryLP.
Open Scope Qc_scope.

Lemma min_scale c a b : 0 <= c -> Qcmin (c * a) (c * b) = c * Qcmin a b.
Proof.
  intros H. unfold Qcmin. destruct (Qcleb_spec a b) as [L|L], (Qcleb_spec (c * a) (c * b)) as [L'|L']; try reflexivity.
  - exfalso. apply (Qclt_not_le _ _ L'). rewrite !(Qcmult_comm c). now apply Qcmult_le_compat_r.
  - apply Qcle_antisym; [assumption|]. rewrite !(Qcmult_comm c). apply Qcmult_le_compat_r; [now apply Qclt_le_weak|assumption].
Qed.

(** subtracting a labelling that follows the order of the marginals *)
Section peel.
Variables (n : nat) (edges : list (nat * nat)) (U : nat -> nat -> Qc) (P : nat -> nat -> nat -> Qc).
Notation m := (length edges).
Notation hd e := (fst (nth e edges (0, 0)%nat)).
Notation tl e := (snd (nth e edges (0, 0)%nat)).
Hypothesis G : graph_edges n edges.
Notation W := (value n edges U P).
Definition meet (p : nat -> Qc) (e : nat) : Qc := Qcmin (p (hd e)) (p (tl e)).

Lemma meet_ok p : (forall v, (v < n)%nat -> 0 <= p v /\ p v <= 1) -> bin_ok n edges p (meet p).
Proof.
  intros Q01. constructor; [exact Q01|]. intros e He. destruct (ends n edges G e He) as [Ha Hb].
  destruct (Q01 _ Ha), (Q01 _ Hb). unfold meet, Qcmin.
  destruct (Qcleb_spec (p (hd e)) (p (tl e))); repeat split; try qclra; try apply Qcle_refl.
Qed.

Lemma peel p y r theta : (forall v, (v < n)%nat -> 0 <= p v /\ p v <= 1) -> labelling n 2 y ->
  0 <= theta -> 0 < r -> r < 1 -> r <= 1 - theta ->
  (forall v, (v < n)%nat -> (bit y v = 1 /\ theta + r <= p v) \/ (bit y v = 0 /\ p v <= theta)) ->
  exists q, (forall v, (v < n)%nat -> 0 <= q v /\ q v <= 1) /\ (forall v, (v < n)%nat -> (1 - r) * q v = p v - r * bit y v) /\
    W p (meet p) = (1 - r) * W q (meet q) + r * score n edges U P (lab y).
Proof.
  intros B LY H0 Rp Rl Rt Y.
  pose (c := / (1 - r)). assert (C0 : c * (1 - r) = 1) by (unfold c; apply Qcmult_inv_l; intro Z; apply (Qclt_not_eq _ _ Rl); qclra).
  assert (Cp : 0 < c).
  { destruct (Qclt_le_dec 0 c) as [|N]; [assumption|]. exfalso.
    assert (c * (1 - r) <= 0 * (1 - r)) by (apply Qcmult_le_compat_r; [assumption|qclra]).
    rewrite C0 in H. revert H. rewrite Qcmult_0_l. vm_compute. auto. }
  clearbody c.
  pose (q := fun v => c * (p v - r * bit y v)). exists q.
  assert (QE : forall v, (1 - r) * q v = p v - r * bit y v).
  { intros v. unfold q. replace ((1 - r) * (c * (p v - r * bit y v))) with ((c * (1 - r)) * (p v - r * bit y v)) by ring. rewrite C0. ring. }
  split; [|split; [intros; apply QE|]].
  - intros v Hv. destruct (B v Hv) as [B0 B1].
    assert (D : 0 <= p v - r * bit y v /\ p v - r * bit y v <= 1 - r).
    { destruct (Y v Hv) as [[-> K]|[-> K]]; rewrite ?Qcmult_1_r, ?Qcmult_0_r; cbv beta in *; split; qclra. }
    destruct D as [D0 D1]. unfold q. split.
    + replace 0 with (c * 0) by ring. rewrite !(Qcmult_comm c). apply Qcmult_le_compat_r; [assumption|now apply Qclt_le_weak].
    + rewrite <- C0. rewrite !(Qcmult_comm c). apply Qcmult_le_compat_r; [assumption|now apply Qclt_le_weak].
  - rewrite <- (value_labelling n edges U P G y LY), <- value_mix. apply (value_ext n edges U P G).
    + intros v Hv. rewrite QE. ring.
    + intros e He. destruct (ends n edges G e He) as [Ha Hb]. unfold meet, q. rewrite min_scale by now apply Qclt_le_weak.
      rewrite Qcmult_assoc, (Qcmult_comm (1 - r) c), C0, Qcmult_1_l. unfold Qcmin.
      destruct (Y _ Ha) as [[-> K]|[-> K]], (Y _ Hb) as [[-> K']|[-> K']]; rewrite ?Qcmult_1_r, ?Qcmult_0_r;
        repeat match goal with |- context [if Qcleb ?a ?b then _ else _] => destruct (Qcleb_spec a b) end;
        try ring; try qclra; try (apply Qcle_antisym; qclra).
Qed.
Lemma below_meet p t : attractive m P -> bin_ok n edges p t -> W p t <= W p (meet p).
Proof.
  intros A B. apply value_mono; [assumption|]. intros e He. destruct (bo_t _ _ _ _ B e He) as (_ & _ & T1 & T2). unfold meet, Qcmin.
  destruct (Qcleb (p (hd e)) (p (tl e))); assumption.
Qed.
End peel.

Section rounding.
Variables (n : nat) (edges : list (nat * nat)) (U : nat -> nat -> Qc) (P : nat -> nat -> nat -> Qc).
Notation m := (length edges).
Notation hd e := (fst (nth e edges (0, 0)%nat)).
Notation tl e := (snd (nth e edges (0, 0)%nat)).
Hypothesis G : graph_edges n edges.
Variables (mu : nat -> nat -> Qc) (nu : nat -> nat -> nat -> Qc).
Hypothesis O : relaxed_optimum n 2 edges U P mu nu.
Notation p := (fun v => mu v 1%nat).
Notation t := (fun e => nu e 1%nat 1%nat).
Notation W := (value n edges U P).

Lemma optimum_value : marginal_score n 2 edges U P mu nu = W p t.
Proof. apply (to_binary n edges U P G), O. Qed.
Lemma optimum_ok : bin_ok n edges p t.
Proof. apply (to_binary n edges U P G mu nu), O. Qed.
Lemma optimum_best q s : bin_ok n edges q s -> W q s <= W p t.
Proof.
  intros B. destruct (of_binary n edges U P G q s B) as [L E]. rewrite <- E, <- optimum_value. now apply O.
Qed.
Lemma optimum_bounds z : labelling n 2 z -> score n edges U P (lab z) <= W p t.
Proof.
  intros L. rewrite <- (value_labelling n edges U P G z L). apply optimum_best. now apply labelling_bin_ok.
Qed.

Lemma threshold_labelling theta : labelling n 2 (threshold n theta mu).
Proof.
  split; [unfold threshold; now rewrite map_length, seq_length|]. apply Forall_forall. intros s H.
  apply in_map_iff in H. destruct H as (i & <- & _). destruct (Qcltb theta (mu i 1%nat)); lia.
Qed.
Lemma lab_map (f : nat -> nat) i : (i < n)%nat -> lab (map f (seq 0 n)) i = f i.
Proof.
  intros H. unfold lab. rewrite (nth_indep _ 0%nat (f 0%nat)) by now rewrite map_length, seq_length.
  now rewrite map_nth, seq_nth.
Qed.
Lemma threshold_bit theta i : (i < n)%nat -> bit (threshold n theta mu) i = if Qcltb theta (mu i 1%nat) then 1 else 0.
Proof. intros H. unfold bit, threshold. rewrite lab_map by assumption. destruct (Qcltb theta (mu i 1%nat)); reflexivity. Qed.

Lemma threshold_best theta : attractive m P -> 0 <= theta -> theta < 1 ->
  maximiser n 2 edges U P (threshold n theta mu) /\
  score n edges U P (lab (threshold n theta mu)) = marginal_score n 2 edges U P mu nu.
Proof.
  intros A H0 H1. set (y := threshold n theta mu). assert (LY : labelling n 2 y) by apply threshold_labelling.
  enough (E : W p t <= score n edges U P (lab y)).
  { split; [split; [exact LY|]|].
    - intros z Hz. eapply Qcle_trans; [apply optimum_bounds; exact Hz|exact E].
    - rewrite optimum_value. apply Qcle_antisym; [now apply optimum_bounds|exact E]. }
  destruct (small_positive n (fun i => if Qcltb theta (mu i 1%nat) then mu i 1%nat - theta else 1)) as (r0 & R0 & R1).
  { intros i _. destruct (Qcltb_spec theta (mu i 1%nat)); [qclra|reflexivity]. }
  assert (RE : exists r, 0 < r /\ r < 1 /\ r <= 1 - theta /\ forall i, (i < n)%nat -> theta < mu i 1%nat -> r <= mu i 1%nat - theta).
  { exists (Q2Qc (1 # 2) * Qcmin r0 (1 - theta)).
    assert (M : 0 < Qcmin r0 (1 - theta)) by (unfold Qcmin; destruct (Qcleb r0 (1 - theta)); [assumption|qclra]).
    assert (M1 : Qcmin r0 (1 - theta) <= r0) by (unfold Qcmin; destruct (Qcleb_spec r0 (1 - theta)); [apply Qcle_refl|now apply Qclt_le_weak]).
    assert (M2 : Qcmin r0 (1 - theta) <= 1 - theta) by (unfold Qcmin; destruct (Qcleb_spec r0 (1 - theta)); [assumption|apply Qcle_refl]).
    revert M M1 M2. generalize (Qcmin r0 (1 - theta)). intros c M M1 M2.
    assert (HH : Q2Qc (1 # 2) * c + Q2Qc (1 # 2) * c = c) by (rewrite <- Qcmult_plus_distr_l; replace (Q2Qc (1 # 2) + Q2Qc (1 # 2)) with 1 by (apply Qc_is_canon; reflexivity); ring).
    revert HH. generalize (Q2Qc (1 # 2) * c). intros h HH. repeat split; try qclra.
    intros i Hi C. specialize (R1 i Hi). cbv beta in R1. destruct (Qcltb_spec theta (mu i 1%nat)) as [T|T]; [qclra|].
    exfalso. apply (Qclt_not_le _ _ C). assumption. }
  destruct RE as (r & Rp & Rl & Rt & Ri). clear r0 R0 R1.
  assert (Y : forall v, (v < n)%nat -> (bit y v = 1 /\ theta + r <= p v) \/ (bit y v = 0 /\ p v <= theta)).
  { intros v Hv. unfold y. rewrite threshold_bit by assumption. destruct (Qcltb_spec theta (mu v 1%nat)) as [T|T]; [left|right]; split; auto.
    specialize (Ri v Hv T). qclra. }
  assert (B := optimum_ok).
  destruct (peel n edges U P G p y r theta (bo_p _ _ _ _ B) LY H0 Rp Rl Rt Y) as (q & Q01 & _ & E2).
  assert (E1 := below_meet n edges U P p t A B).
  assert (E3 := optimum_best q (meet edges q) (meet_ok n edges G q Q01)).
  assert (E4 : W p t <= (1 - r) * W q (meet edges q) + r * score n edges U P (lab y)) by (rewrite <- E2; exact E1).
  clear E1. rename E4 into E1. revert E1 E3. generalize (W p t), (W q (meet edges q)), (score n edges U P (lab y)). intros w w' g E1 E3.
  destruct (Qclt_le_dec g w) as [L|L]; [|assumption]. exfalso.
  assert (F1 : (1 - r) * w' <= (1 - r) * w) by (rewrite !(Qcmult_comm (1 - r)); apply Qcmult_le_compat_r; [assumption|qclra]).
  assert (F2 : r * g < r * w) by (rewrite !(Qcmult_comm r); now apply Qcmult_lt_compat_r).
  assert (F3 : (1 - r) * w + r * w = w) by ring.
  revert E1 F1 F2 F3. generalize ((1 - r) * w'), ((1 - r) * w), (r * g), (r * w). intros. qclra.
Qed.

Lemma keep_labelling z : labelling n 2 z -> labelling n 2 (keep_decided n mu z).
Proof.
  intros L. split; [unfold keep_decided; now rewrite map_length, seq_length|]. apply Forall_forall. intros s H.
  apply in_map_iff in H. destruct H as (i & <- & Hi). apply in_seq in Hi.
  destruct (Qceqb (mu i 1%nat) 1); [lia|]. destruct (Qceqb (mu i 1%nat) 0); [lia|].
  destruct (lab2 n z i L ltac:(lia)); lia.
Qed.
Lemma keep_bit z i : labelling n 2 z -> (i < n)%nat ->
  (p i = 1 /\ bit (keep_decided n mu z) i = 1) \/ (p i = 0 /\ bit (keep_decided n mu z) i = 0) \/
  (0 < p i /\ p i < 1 /\ bit (keep_decided n mu z) i = bit z i).
Proof.
  intros L H. unfold bit, keep_decided. rewrite lab_map by assumption.
  destruct (Qceqb_spec (mu i 1%nat) 1) as [E|N]; [left; split; [assumption|reflexivity]|].
  destruct (Qceqb_spec (mu i 1%nat) 0) as [E|N']; [right; left; split; [assumption|reflexivity]|].
  right; right. destruct (bo_p _ _ _ _ optimum_ok i H) as [B0 B1]. cbv beta in B0, B1.
  apply Qcle_lt_or_eq in B0. apply Qcle_lt_or_eq in B1. destruct B0 as [B0|B0]; [|exfalso; now apply N'].
  destruct B1 as [B1|B1]; [|exfalso; now apply N]. auto.
Qed.

Lemma keep_decided_better z : labelling n 2 z ->
  score n edges U P (lab z) <= score n edges U P (lab (keep_decided n mu z)).
Proof.
  intros LZ. set (y := keep_decided n mu z). assert (LY : labelling n 2 y) by now apply keep_labelling.
  destruct (small_positive n (fun i => if Qceqb (mu i 1%nat) 1 then 1 else if Qceqb (mu i 1%nat) 0 then 1 else Qcmin (mu i 1%nat) (1 - mu i 1%nat))) as (r0 & R0 & R1).
  { intros i Hi. destruct (bo_p _ _ _ _ optimum_ok i Hi) as [B0 B1]. cbv beta in B0, B1.
    destruct (Qceqb_spec (mu i 1%nat) 1) as [E|N]; [reflexivity|]. destruct (Qceqb_spec (mu i 1%nat) 0) as [E|N']; [reflexivity|].
    apply Qcle_lt_or_eq in B0. apply Qcle_lt_or_eq in B1. destruct B0 as [B0|B0]; [|exfalso; now apply N'].
    destruct B1 as [B1|B1]; [|exfalso; now apply N]. unfold Qcmin. destruct (Qcleb _ _); [assumption|qclra]. }
  assert (RE : exists r, 0 < r /\ r <= 1 /\ forall i, (i < n)%nat -> 0 < p i -> p i < 1 -> r <= p i /\ r <= 1 - p i).
  { assert (K : forall i, (i < n)%nat -> 0 < p i -> p i < 1 -> r0 <= p i /\ r0 <= 1 - p i).
    { intros i Hi C0 C1. specialize (R1 i Hi). cbv beta in *. destruct (Qceqb_spec (mu i 1%nat) 1) as [E|N]; [rewrite E in C1; discriminate|].
      destruct (Qceqb_spec (mu i 1%nat) 0) as [E|N']; [rewrite E in C0; discriminate|].
      unfold Qcmin in R1. destruct (Qcleb_spec (mu i 1%nat) (1 - mu i 1%nat)); split; qclra. }
    destruct (Qclt_le_dec r0 1) as [C|C].
    - exists r0. repeat split; [assumption|now apply Qclt_le_weak| |]; intros; now apply K.
    - exists 1. split; [reflexivity|]. split; [apply Qcle_refl|]. intros i Hi C0 C1. destruct (K i Hi C0 C1). split; qclra. }
  destruct RE as (r & Rp & Rl & Ri). clear r0 R0 R1.
  pose (q := fun v => p v + r * (bit z v - bit y v)).
  pose (s := fun e => t e + r * (bit z (hd e) * bit z (tl e) - bit y (hd e) * bit y (tl e))).
  assert (B := optimum_ok).
  assert (KB : forall v, (v < n)%nat -> (bit z v = 0 \/ bit z v = 1) /\
    ((p v = 1 /\ bit y v = 1) \/ (p v = 0 /\ bit y v = 0) \/ (r <= p v /\ r <= 1 - p v /\ bit y v = bit z v))).
  { intros v Hv. split; [destruct (bit2 n z v LZ Hv) as [[_ ?]|[_ ?]]; auto|].
    destruct (keep_bit z v LZ Hv) as [?|[?|(C0 & C1 & E)]]; auto. right; right. destruct (Ri v Hv C0 C1). auto. }
  assert (M00 : r * (0 - 0) = 0) by ring. assert (M11 : r * (1 - 1) = 0) by ring.
  assert (M01 : r * (0 - 1) = - r) by ring. assert (M10 : r * (1 - 0) = r) by ring.
  assert (Bq : bin_ok n edges q s).
  { constructor.
    - intros v Hv. unfold q. destruct (bo_p _ _ _ _ B v Hv) as [B0 B1]. destruct (KB v Hv) as [[-> | ->] [[-> ->]|[[-> ->]|(C0 & C1 & ->)]]];
        cbv beta in *; rewrite ?M00, ?M11, ?M01, ?M10; split; qclra.
    - intros e He. destruct (ends n edges G e He) as [Ha Hb]. unfold q, s. destruct (bo_t _ _ _ _ B e He) as (T0 & T1 & T2 & T3).
      destruct (KB _ Ha) as [[-> | ->] [[Ea ->]|[[Ea ->]|(C0 & C1 & ->)]]];
      destruct (KB _ Hb) as [[-> | ->] [[Eb ->]|[[Eb ->]|(D0 & D1 & ->)]]]; cbv beta in *;
      rewrite ?Ea, ?Eb in *; rewrite ?Qcmult_0_l, ?Qcmult_0_r, ?Qcmult_1_l, ?M00, ?M11, ?M01, ?M10; repeat split; qclra. }
  assert (E := optimum_best q s Bq). unfold q, s in E. rewrite value_shift in E.
  rewrite (value_labelling n edges U P G z LZ), (value_labelling n edges U P G y LY) in E.
  revert E. generalize (score n edges U P (lab z)), (score n edges U P (lab y)). intros a b E.
  destruct (Qclt_le_dec b a) as [L|L]; [|assumption]. exfalso.
  assert (r * b < r * a) by (rewrite !(Qcmult_comm r); now apply Qcmult_lt_compat_r).
  assert (H0 : r * (a - b) <= 0) by (assert (E' : W p t + r * (a - b) <= W p t) by exact E; revert E'; generalize (W p t), (r * (a - b)); intros; qclra).
  revert H H0. replace (r * (a - b)) with (r * a - r * b) by ring.
  generalize (r * a), (r * b). intros. qclra.
Qed.
End rounding.

(** no optimum is needed for the value: peel off the positive nodes *)
Section tight.
Variables (n : nat) (edges : list (nat * nat)) (U : nat -> nat -> Qc) (P : nat -> nat -> nat -> Qc).
Hypothesis G : graph_edges n edges.
Notation W := (value n edges U P).
Variable V : Qc.
Hypothesis HV : forall z, labelling n 2 z -> score n edges U P (lab z) <= V.

Lemma min_positive (p : nat -> Qc) k : (forall i, (i < k)%nat -> ~ 0 < p i) \/
  exists v, (v < k)%nat /\ 0 < p v /\ forall i, (i < k)%nat -> 0 < p i -> p v <= p i.
Proof.
  induction k as [|k [IH|(v & Hv & Pv & Mv)]]; [left; intros; lia| |].
  - destruct (Qclt_le_dec 0 (p k)) as [C|C].
    + right. exists k. split; [lia|]. split; [assumption|]. intros i Hi Pi.
      assert (i < k \/ i = k)%nat as [A| ->] by lia; [exfalso; now apply (IH i A)|apply Qcle_refl].
    + left. intros i Hi. assert (i < k \/ i = k)%nat as [A| ->] by lia; [auto|now apply Qcle_not_lt].
  - right. destruct (Qclt_le_dec 0 (p k)) as [C|C].
    + destruct (Qclt_le_dec (p k) (p v)) as [D|D].
      * exists k. split; [lia|]. split; [assumption|]. intros i Hi Pi.
        assert (i < k \/ i = k)%nat as [A| ->] by lia; [|apply Qcle_refl].
        apply Qclt_le_weak. eapply Qclt_le_trans; [exact D|now apply Mv].
      * exists v. split; [lia|]. split; [assumption|]. intros i Hi Pi.
        assert (i < k \/ i = k)%nat as [A| ->] by lia; [now apply Mv|assumption].
    + exists v. split; [lia|]. split; [assumption|]. intros i Hi Pi.
      assert (i < k \/ i = k)%nat as [A| ->] by lia; [now apply Mv|exfalso; now apply (Qcle_not_lt _ _ C)].
Qed.

Definition positives (p : nat -> Qc) : nat := length (filter (fun v => Qcltb 0 (p v)) (seq 0 n)).
Lemma filter_lt {A} (f g : A -> bool) l x : In x l -> f x = false -> g x = true -> (forall a, In a l -> f a = true -> g a = true) ->
  (length (filter f l) < length (filter g l))%nat.
Proof.
  intros I F T H. assert (LE : forall l', (forall a, In a l' -> f a = true -> g a = true) -> (length (filter f l') <= length (filter g l'))%nat).
  { induction l' as [|a l' IH]; intros H'; [simpl; lia|]. simpl. specialize (IH (fun a Ha => H' a (or_intror Ha))).
    specialize (H' a (or_introl eq_refl)). destruct (f a); [rewrite H' by reflexivity; simpl; lia|destruct (g a); simpl; lia]. }
  induction l as [|a l IH]; [contradiction|]. simpl. destruct I as [-> |I].
  - rewrite F, T. simpl. specialize (LE l (fun a Ha => H a (or_intror Ha))). lia.
  - specialize (IH I (fun a Ha => H a (or_intror Ha))). specialize (H a (or_introl eq_refl)).
    destruct (f a); [rewrite H by reflexivity; simpl; lia|destruct (g a); simpl; lia].
Qed.

Lemma meet_bits (p : nat -> Qc) y : labelling n 2 y -> (forall v, (v < n)%nat -> p v = bit y v) ->
  W p (meet edges p) = score n edges U P (lab y).
Proof.
  intros L E. rewrite <- (value_labelling n edges U P G y L). apply (value_ext n edges U P G); [exact E|].
  intros e He. destruct (ends n edges G e He) as [Ha Hb]. unfold meet. rewrite !E by assumption.
  destruct (bit2 n y _ L Ha) as [[_ ->] | [_ ->]]; destruct (bit2 n y _ L Hb) as [[_ ->] | [_ ->]]; apply Qc_is_canon; reflexivity.
Qed.

Lemma meet_bounded c : forall p, (positives p <= c)%nat -> (forall v, (v < n)%nat -> 0 <= p v /\ p v <= 1) -> W p (meet edges p) <= V.
Proof.
  induction c as [c IH] using lt_wf_ind. intros p Hc B.
  pose (y := threshold n 0 (fun i _ => p i)).
  assert (LY : labelling n 2 y) by apply threshold_labelling.
  assert (Y : forall v, (v < n)%nat -> bit y v = if Qcltb 0 (p v) then 1 else 0) by (intros v Hv; unfold y; now rewrite threshold_bit).
  destruct (min_positive p n) as [Z|(v & Hv & Pv & Mv)].
  - rewrite (meet_bits p y LY); [now apply HV|]. intros v Hv. rewrite Y by assumption.
    destruct (Qcltb_spec 0 (p v)) as [C|C]; [exfalso; now apply (Z v Hv)|]. apply Qcle_antisym; [assumption|now apply B].
  - destruct (Qclt_le_dec (p v) 1) as [C|C].
    + destruct (peel n edges U P G p y (p v) 0 B LY) as (q & Q01 & QE & E); try assumption.
      * apply Qcle_refl.
      * destruct (B v Hv). qclra.
      * intros i Hi. rewrite Y by assumption. destruct (Qcltb_spec 0 (p i)) as [D|D]; [left|right]; split; auto.
        rewrite Qcplus_0_l. now apply Mv.
      * rewrite E. assert (F : W q (meet edges q) <= V).
        { apply (IH (positives q)); [|lia|assumption]. eapply Nat.lt_le_trans; [|exact Hc]. unfold positives.
          apply (filter_lt _ _ _ v).
          - apply in_seq; lia.
          - destruct (Qcltb_spec 0 (q v)) as [D|D]; [|reflexivity]. exfalso. specialize (QE v Hv). rewrite Y in QE by assumption.
            destruct (Qcltb_spec 0 (p v)) as [D'|D']; [|now apply (Qcle_not_lt _ _ D')].
            assert (0 * q v < (1 - p v) * q v) by (apply Qcmult_lt_compat_r; [assumption|qclra]).
            rewrite QE in H. rewrite Qcmult_0_l, Qcmult_1_r in H. qclra.
          - destruct (Qcltb_spec 0 (p v)) as [D'|D']; [reflexivity|]. exfalso. now apply (Qcle_not_lt _ _ D').
          - intros i Hi. apply in_seq in Hi. destruct (Qcltb_spec 0 (q i)) as [D|D]; [|discriminate]. intros _.
            destruct (Qcltb_spec 0 (p i)) as [D'|D']; [reflexivity|]. exfalso.
            specialize (QE i ltac:(lia)). rewrite Y in QE by lia.
            destruct (Qcltb_spec 0 (p i)) as [D2|D2]; [now apply (Qcle_not_lt _ _ D')|].
            assert (0 * q i < (1 - p v) * q i) by (apply Qcmult_lt_compat_r; [assumption|qclra]).
            rewrite QE in H. rewrite Qcmult_0_l, Qcmult_0_r in H. qclra. }
        specialize (HV y LY). revert F HV. generalize (W q (meet edges q)), (score n edges U P (lab y)). intros a b Fa Fb.
        assert (X1 : (1 - p v) * a <= (1 - p v) * V) by (rewrite !(Qcmult_comm (1 - p v)); apply Qcmult_le_compat_r; [assumption|qclra]).
        assert (X2 : p v * b <= p v * V) by (rewrite !(Qcmult_comm (p v)); apply Qcmult_le_compat_r; [assumption|now apply Qclt_le_weak]).
        assert (X3 : (1 - p v) * V + p v * V = V) by ring. rewrite <- X3 at 1. now apply Qcplus_le_compat.
    + rewrite (meet_bits p y LY); [now apply HV|]. intros i Hi. rewrite Y by assumption.
      destruct (Qcltb_spec 0 (p i)) as [D|D].
      * apply Qcle_antisym; [now apply B|]. eapply Qcle_trans; [exact C|now apply Mv].
      * apply Qcle_antisym; [assumption|now apply B].
Qed.

Lemma relaxation_bounded mu nu : attractive (length edges) P -> local_polytope n 2 edges mu nu ->
  marginal_score n 2 edges U P mu nu <= V.
Proof.
  intros A L. destruct (to_binary n edges U P G mu nu L) as [B ->]. eapply Qcle_trans; [now apply below_meet|].
  eapply meet_bounded; [reflexivity|apply B].
Qed.
End tight.

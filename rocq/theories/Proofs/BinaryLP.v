(** The relaxation with two labels. *)
From Verif Require Import Spec.BinaryLPSpec Proofs.Arrays.
Open Scope Qc_scope.

Lemma sumn2 f : sumn 2 f = f 0%nat + f 1%nat.
Proof. rewrite !sumn_S, sumn_O. ring. Qed.

Section binary.
Variables (n : nat) (edges : list (nat * nat)) (U : nat -> nat -> Qc) (P : nat -> nat -> nat -> Qc).
Notation m := (length edges).
Notation hd e := (fst (nth e edges (0, 0)%nat)).
Notation tl e := (snd (nth e edges (0, 0)%nat)).
Hypothesis G : graph_edges n edges.

Lemma ends e : (e < m)%nat -> (hd e < n)%nat /\ (tl e < n)%nat.
Proof. intros H. unfold graph_edges in G. rewrite Forall_forall in G. apply G. now apply nth_In. Qed.

Definition cross e : Qc := P e 0%nat 0%nat + P e 1%nat 1%nat - P e 0%nat 1%nat - P e 1%nat 0%nat.
Definition edge_val e (a b t : Qc) : Qc :=
  P e 0%nat 0%nat + a * (P e 1%nat 0%nat - P e 0%nat 0%nat) + b * (P e 0%nat 1%nat - P e 0%nat 0%nat) + t * cross e.
Definition value (p t : nat -> Qc) : Qc :=
  sumn n (fun v => U v 0%nat + p v * (U v 1%nat - U v 0%nat)) + sumn m (fun e => edge_val e (p (hd e)) (p (tl e)) (t e)).

Record bin_ok (p t : nat -> Qc) : Prop := {
  bo_p : forall v, (v < n)%nat -> 0 <= p v /\ p v <= 1;
  bo_t : forall e, (e < m)%nat -> 0 <= t e /\ p (hd e) + p (tl e) - 1 <= t e /\ t e <= p (hd e) /\ t e <= p (tl e) }.

Definition mu_of (p : nat -> Qc) (v s : nat) : Qc := if (s =? 0)%nat then 1 - p v else p v.
Definition nu_of (p t : nat -> Qc) (e a b : nat) : Qc :=
  if (a =? 0)%nat then (if (b =? 0)%nat then 1 - p (hd e) - p (tl e) + t e else p (tl e) - t e)
  else if (b =? 0)%nat then p (hd e) - t e else t e.

Lemma to_binary mu nu : local_polytope n 2 edges mu nu ->
  bin_ok (fun v => mu v 1%nat) (fun e => nu e 1%nat 1%nat) /\
  marginal_score n 2 edges U P mu nu = value (fun v => mu v 1%nat) (fun e => nu e 1%nat 1%nat).
Proof.
  intros [L0 LN L1 LF LS].
  assert (S1 : forall v, (v < n)%nat -> mu v 0%nat + mu v 1%nat = 1) by (intros v H; rewrite <- (L1 v H), sumn2; reflexivity).
  split.
  - constructor.
    + intros v H. pose proof (L0 v 0%nat H ltac:(lia)). pose proof (L0 v 1%nat H ltac:(lia)). pose proof (S1 v H). split; qclra.
    + intros e H. destruct (ends e H) as [Ha Hb].
      pose proof (LF e 0%nat H ltac:(lia)) as F0. pose proof (LF e 1%nat H ltac:(lia)) as F1.
      pose proof (LS e 1%nat H ltac:(lia)) as S2. rewrite sumn2 in F0, F1, S2.
      pose proof (LN e 0%nat 0%nat H ltac:(lia) ltac:(lia)). pose proof (LN e 0%nat 1%nat H ltac:(lia) ltac:(lia)).
      pose proof (LN e 1%nat 0%nat H ltac:(lia) ltac:(lia)). pose proof (LN e 1%nat 1%nat H ltac:(lia) ltac:(lia)).
      pose proof (S1 _ Ha). pose proof (S1 _ Hb). repeat split; qclra.
  - unfold marginal_score, value. f_equal.
    + apply sumn_ext. intros v H. rewrite sumn2. replace (mu v 0%nat) with (1 - mu v 1%nat) by (rewrite <- (S1 v H); ring). ring.
    + apply sumn_ext. intros e H. destruct (ends e H) as [Ha Hb]. rewrite !sumn2.
      pose proof (LF e 0%nat H ltac:(lia)) as F0. pose proof (LF e 1%nat H ltac:(lia)) as F1.
      pose proof (LS e 1%nat H ltac:(lia)) as S2. rewrite sumn2 in F0, F1, S2. pose proof (S1 _ Ha) as Sa. cbv beta in *.
      rewrite <- F1, <- S2. rewrite <- F1, <- F0 in Sa.
      unfold edge_val, cross.
      replace (nu e 0%nat 0%nat) with (1 - nu e 0%nat 1%nat - nu e 1%nat 0%nat - nu e 1%nat 1%nat) by (rewrite <- Sa; ring). ring.
Qed.

Lemma of_binary p t : bin_ok p t ->
  local_polytope n 2 edges (mu_of p) (nu_of p t) /\ marginal_score n 2 edges U P (mu_of p) (nu_of p t) = value p t.
Proof.
  intros B. assert (L : local_polytope n 2 edges (mu_of p) (nu_of p t)).
  { constructor.
    - intros v [|[|]] H Hs; try lia; destruct (bo_p _ _ B v H); cbn; [qclra|assumption].
    - intros e [|[|]] [|[|]] H Ha Hb; try lia; destruct (bo_t _ _ B e H) as (T1 & T2 & T3 & T4); cbn; qclra.
    - intros v H. rewrite sumn2. cbn. ring.
    - intros e [|[|]] H Hs; try lia; rewrite sumn2; cbn; ring.
    - intros e [|[|]] H Hs; try lia; rewrite sumn2; cbn; ring. }
  split; [exact L|]. now rewrite (proj2 (to_binary _ _ L)).
Qed.

Lemma value_ext p p' t t' : (forall v, (v < n)%nat -> p v = p' v) -> (forall e, (e < m)%nat -> t e = t' e) -> value p t = value p' t'.
Proof.
  intros Hp Ht. unfold value. f_equal; apply sumn_ext.
  - intros v H. now rewrite Hp.
  - intros e H. destruct (ends e H). now rewrite !Hp, Ht.
Qed.

(** affine *)
Lemma value_mix r p q t s :
  value (fun v => (1 - r) * p v + r * q v) (fun e => (1 - r) * t e + r * s e) = (1 - r) * value p t + r * value q s.
Proof.
  unfold value. rewrite !Qcmult_plus_distr_r, <- !sumn_mult_l.
  rewrite (sumn_ext n _ (fun v => (1 - r) * (U v 0%nat + p v * (U v 1%nat - U v 0%nat)) + r * (U v 0%nat + q v * (U v 1%nat - U v 0%nat))))
    by (intros; ring).
  rewrite (sumn_ext m _ (fun e => (1 - r) * edge_val e (p (hd e)) (p (tl e)) (t e) + r * edge_val e (q (hd e)) (q (tl e)) (s e)))
    by (intros; unfold edge_val; ring).
  rewrite !sumn_plus. ring.
Qed.

Lemma value_shift r p q q' t s s' :
  value (fun v => p v + r * (q v - q' v)) (fun e => t e + r * (s e - s' e)) = value p t + r * (value q s - value q' s').
Proof.
  unfold value.
  rewrite (sumn_ext n _ (fun v => (U v 0%nat + p v * (U v 1%nat - U v 0%nat)) +
     r * ((U v 0%nat + q v * (U v 1%nat - U v 0%nat)) - (U v 0%nat + q' v * (U v 1%nat - U v 0%nat))))) by (intros; ring).
  rewrite (sumn_ext m _ (fun e => edge_val e (p (hd e)) (p (tl e)) (t e) +
     r * (edge_val e (q (hd e)) (q (tl e)) (s e) - edge_val e (q' (hd e)) (q' (tl e)) (s' e)))) by (intros; unfold edge_val; ring).
  rewrite !sumn_plus, !sumn_mult_l, !sumn_minus, ?sumn_plus. ring.
Qed.

Lemma value_mono p t t' : attractive m P -> (forall e, (e < m)%nat -> t e <= t' e) -> value p t <= value p t'.
Proof.
  intros A H. unfold value. apply Qcplus_le_compat; [apply Qcle_refl|]. apply sumn_le. intros e He.
  unfold edge_val. apply Qcplus_le_compat; [apply Qcle_refl|]. apply Qcmult_le_compat_r; [now apply H|].
  specialize (A e He). unfold cross. qclra.
Qed.

(** labellings *)
Definition bit (y : list nat) (v : nat) : Qc := ofN (lab y v).
Lemma lab2 y v : labelling n 2 y -> (v < n)%nat -> lab y v = 0%nat \/ lab y v = 1%nat.
Proof.
  intros [L F] H. rewrite Forall_forall in F. specialize (F (lab y v)). assert (lab y v < 2)%nat by (apply F; apply nth_In; lia). lia.
Qed.
Lemma bit2 y v : labelling n 2 y -> (v < n)%nat -> (lab y v = 0%nat /\ bit y v = 0) \/ (lab y v = 1%nat /\ bit y v = 1).
Proof.
  intros L H. unfold bit. destruct (lab2 y v L H) as [-> | ->]; [left|right]; split; reflexivity.
Qed.
Lemma value_labelling y : labelling n 2 y ->
  value (bit y) (fun e => bit y (hd e) * bit y (tl e)) = score n edges U P (lab y).
Proof.
  intros L. unfold value, score. f_equal; apply sumn_ext.
  - intros v H. destruct (bit2 y v L H) as [[-> ->] | [-> ->]]; ring.
  - intros e H. destruct (ends e H) as [Ha Hb]. unfold edge_val, cross.
    destruct (bit2 y _ L Ha) as [[-> ->] | [-> ->]]; destruct (bit2 y _ L Hb) as [[-> ->] | [-> ->]]; ring.
Qed.
Lemma labelling_bin_ok y : labelling n 2 y -> bin_ok (bit y) (fun e => bit y (hd e) * bit y (tl e)).
Proof.
  intros L. constructor.
  - intros v H. destruct (bit2 y v L H) as [[_ ->] | [_ ->]]; split; vm_compute; discriminate.
  - intros e H. destruct (ends e H) as [Ha Hb].
    destruct (bit2 y _ L Ha) as [[_ ->] | [_ ->]]; destruct (bit2 y _ L Hb) as [[_ ->] | [_ ->]]; repeat split; vm_compute; discriminate.
Qed.

Lemma small_positive k (f : nat -> Qc) : (forall i, (i < k)%nat -> 0 < f i) -> exists r, 0 < r /\ forall i, (i < k)%nat -> r <= f i.
Proof.
  induction k as [|k IH]; intros H.
  - exists 1. split; [reflexivity|]. intros; lia.
  - destruct IH as (r & Hr & Hk); [intros; apply H; lia|].
    pose proof (H k ltac:(lia)) as Hf. destruct (Qclt_le_dec r (f k)) as [C|C].
    + exists r. split; [exact Hr|]. intros i Hi. assert (i < k \/ i = k)%nat as [A| ->] by lia; [now apply Hk|now apply Qclt_le_weak].
    + exists (f k). split; [exact Hf|]. intros i Hi. assert (i < k \/ i = k)%nat as [A| ->] by lia; [|apply Qcle_refl].
      eapply Qcle_trans; [exact C|now apply Hk].
Qed.
End binary.

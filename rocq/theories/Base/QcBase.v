(** Exact rational arithmetic used for all numbers of the model.

    [Qc] is the standard library's type of canonical rationals: equality is
    Leibniz equality, everything computes, no axioms are involved.
    This file only contains generic facts: nothing in it refers to pystruct. *)
From Coq Require Export QArith Qcanon List Arith Lia Bool ZArith.
From Coq Require Import Lqa.
Export ListNotations.
Open Scope Qc_scope.

Lemma this_plus (x y : Qc) : (this (x + y) == this x + this y)%Q.
Proof. exact (Qred_correct (this x + this y)). Qed.
Lemma this_mult (x y : Qc) : (this (x * y) == this x * this y)%Q.
Proof. exact (Qred_correct (this x * this y)). Qed.
Lemma this_opp (x : Qc) : (this (- x) == - this x)%Q.
Proof. exact (Qred_correct (- this x)). Qed.
Lemma this_minus (x y : Qc) : (this (x - y) == this x - this y)%Q.
Proof. unfold Qcminus. rewrite this_plus, this_opp. reflexivity. Qed.
Lemma this_Q2Qc (q : Q) : (this (Q2Qc q) == q)%Q.
Proof. exact (Qred_correct q). Qed.
Lemma Qc_eq_this (x y : Qc) : x = y -> (this x == this y)%Q.
Proof. intros ->. reflexivity. Qed.
Lemma Qc_neq_this (x y : Qc) : x <> y -> ~ (this x == this y)%Q.
Proof. intros H E. apply H, Qc_is_canon, E. Qed.

(** [qclra]/[qcnra]: linear (non-linear) arithmetic over [Qc], by translation
    of every [Qc] term into [Q] and calling [lra]/[nra]. *)
Ltac qc_push_term t :=
  lazymatch t with
  | Qcplus ?x ?y => let H := fresh "Hqc" in let z := fresh "zqc" in
      assert (H := this_plus x y); set (z := this (Qcplus x y)) in *; clearbody z
  | Qcmult ?x ?y => let H := fresh "Hqc" in let z := fresh "zqc" in
      assert (H := this_mult x y); set (z := this (Qcmult x y)) in *; clearbody z
  | Qcminus ?x ?y => let H := fresh "Hqc" in let z := fresh "zqc" in
      assert (H := this_minus x y); set (z := this (Qcminus x y)) in *; clearbody z
  | Qcdiv ?x ?y => change (Qcdiv x y) with (Qcmult x (Qcinv y)) in *
  | Qcopp ?x => let H := fresh "Hqc" in let z := fresh "zqc" in
      assert (H := this_opp x); set (z := this (Qcopp x)) in *; clearbody z
  | Q2Qc ?q => let H := fresh "Hqc" in let z := fresh "zqc" in
      assert (H := this_Q2Qc q); set (z := this (Q2Qc q)) in *; clearbody z
  end.
Ltac qc_push :=
  match goal with
  | |- context [this ?t] => qc_push_term t
  | _ : context [this ?t] |- _ => qc_push_term t
  end.
Ltac qc_hyps :=
  repeat match goal with
  | H : @eq Qc _ _ |- _ => apply Qc_eq_this in H
  | H : not (@eq Qc _ _) |- _ => apply Qc_neq_this in H
  | H : Qcle _ _ |- _ => unfold Qcle in H
  | H : Qclt _ _ |- _ => unfold Qclt in H
  | H : not (Qcle _ _) |- _ => unfold Qcle in H; apply Qnot_le_lt in H
  | H : not (Qclt _ _) |- _ => unfold Qclt in H; apply Qnot_lt_le in H
  end.
Ltac qc_start :=
  repeat match goal with
  | |- not _ => intro
  | |- _ -> _ => intro
  | |- @eq Qc _ _ => apply Qc_is_canon
  | |- Qcle _ _ => unfold Qcle
  | |- Qclt _ _ => unfold Qclt
  end.
Ltac qc_to_q := qc_start; qc_hyps; repeat qc_push.
Ltac qclra := qc_to_q; lra.
Ltac qcnra := qc_to_q; nra.

(** Boolean comparisons. *)
Definition Qcleb (x y : Qc) : bool := Qle_bool (this x) (this y).
Definition Qcltb (x y : Qc) : bool := negb (Qcleb y x).
Definition Qceqb (x y : Qc) : bool := Qeq_bool (this x) (this y).

Lemma Qcleb_le x y : Qcleb x y = true <-> x <= y.
Proof. unfold Qcleb, Qcle. apply Qle_bool_iff. Qed.
Lemma Qcleb_gt x y : Qcleb x y = false <-> y < x.
Proof.
  unfold Qcleb, Qclt. split; intro H.
  - apply Qnot_le_lt. intro L. apply Qle_bool_iff in L. congruence.
  - destruct (Qle_bool (this x) (this y)) eqn:E; auto.
    apply Qle_bool_iff in E. apply Qlt_not_le in H. contradiction.
Qed.
Lemma Qcltb_lt x y : Qcltb x y = true <-> x < y.
Proof. unfold Qcltb. rewrite negb_true_iff. apply Qcleb_gt. Qed.
Lemma Qcltb_ge x y : Qcltb x y = false <-> y <= x.
Proof. unfold Qcltb. rewrite negb_false_iff. apply Qcleb_le. Qed.
Lemma Qceqb_eq x y : Qceqb x y = true <-> x = y.
Proof.
  unfold Qceqb. rewrite Qeq_bool_iff. split; intro H.
  - apply Qc_is_canon; auto.
  - subst; reflexivity.
Qed.
Lemma Qceqb_neq x y : Qceqb x y = false <-> x <> y.
Proof. rewrite <- Qceqb_eq. destruct (Qceqb x y); intuition congruence. Qed.
Lemma Qceqb_refl x : Qceqb x x = true.
Proof. apply Qceqb_eq; reflexivity. Qed.
Lemma Qcleb_spec x y : BoolSpec (x <= y) (y < x) (Qcleb x y).
Proof.
  destruct (Qcleb x y) eqn:E; constructor.
  - apply Qcleb_le; auto.
  - apply Qcleb_gt; auto.
Qed.
Lemma Qcltb_spec x y : BoolSpec (x < y) (y <= x) (Qcltb x y).
Proof.
  destruct (Qcltb x y) eqn:E; constructor.
  - apply Qcltb_lt; auto.
  - apply Qcltb_ge; auto.
Qed.
Lemma Qceqb_spec x y : BoolSpec (x = y) (x <> y) (Qceqb x y).
Proof.
  destruct (Qceqb x y) eqn:E; constructor.
  - apply Qceqb_eq; auto.
  - apply Qceqb_neq; auto.
Qed.

Definition Qcmax (x y : Qc) : Qc := if Qcleb x y then y else x.
Definition Qcmin (x y : Qc) : Qc := if Qcleb x y then x else y.
Definition Qcabs (x : Qc) : Qc := if Qcleb 0 x then x else - x.
Lemma Qcmax_ge_l x y : x <= Qcmax x y.
Proof. unfold Qcmax. destruct (Qcleb_spec x y); qclra. Qed.
Lemma Qcmax_ge_r x y : y <= Qcmax x y.
Proof. unfold Qcmax. destruct (Qcleb_spec x y); qclra. Qed.
Lemma Qcmax_lub x y z : x <= z -> y <= z -> Qcmax x y <= z.
Proof. unfold Qcmax. destruct (Qcleb_spec x y); qclra. Qed.
Lemma Qcmax_either x y : Qcmax x y = x \/ Qcmax x y = y.
Proof. unfold Qcmax. destruct (Qcleb x y); auto. Qed.

(** Integers as rationals. *)
Definition ofZ (z : Z) : Qc := Q2Qc (inject_Z z).
Definition ofN (n : nat) : Qc := ofZ (Z.of_nat n).
Lemma this_ofZ z : (this (ofZ z) == inject_Z z)%Q.
Proof. apply this_Q2Qc. Qed.
Lemma ofZ_plus a b : ofZ (a + b) = ofZ a + ofZ b.
Proof.
  apply Qc_is_canon. rewrite this_plus, !this_ofZ, inject_Z_plus. reflexivity.
Qed.
Lemma ofZ_mult a b : ofZ (a * b) = ofZ a * ofZ b.
Proof.
  apply Qc_is_canon. rewrite this_mult, !this_ofZ, inject_Z_mult. reflexivity.
Qed.
Lemma ofZ_opp a : ofZ (- a) = - ofZ a.
Proof.
  apply Qc_is_canon. rewrite this_opp, !this_ofZ, inject_Z_opp. reflexivity.
Qed.
Lemma ofZ_le a b : (a <= b)%Z -> ofZ a <= ofZ b.
Proof.
  intro H. unfold Qcle. rewrite !this_ofZ. rewrite <- Zle_Qle. exact H.
Qed.
Lemma ofZ_lt a b : (a < b)%Z -> ofZ a < ofZ b.
Proof.
  intro H. unfold Qclt. rewrite !this_ofZ. rewrite <- Zlt_Qlt. exact H.
Qed.
Lemma ofZ_inj a b : ofZ a = ofZ b -> a = b.
Proof.
  intro H. apply Qc_eq_this in H. rewrite !this_ofZ in H. apply inject_Z_injective. exact H.
Qed.
Lemma ofN_0 : ofN 0 = 0.
Proof. apply Qc_is_canon. reflexivity. Qed.
Lemma ofN_1 : ofN 1 = 1.
Proof. apply Qc_is_canon. reflexivity. Qed.
Lemma ofN_plus a b : ofN (a + b) = ofN a + ofN b.
Proof. unfold ofN. rewrite Nat2Z.inj_add. apply ofZ_plus. Qed.
Lemma ofN_mult a b : ofN (a * b) = ofN a * ofN b.
Proof. unfold ofN. rewrite Nat2Z.inj_mul. apply ofZ_mult. Qed.
Lemma ofN_S n : ofN (S n) = 1 + ofN n.
Proof. change (S n) with (1 + n)%nat. rewrite ofN_plus, ofN_1. reflexivity. Qed.
Lemma ofN_nonneg n : 0 <= ofN n.
Proof. rewrite <- ofN_0. apply ofZ_le. lia. Qed.
Lemma ofN_pos n : (0 < n)%nat -> 0 < ofN n.
Proof. intro. rewrite <- ofN_0. apply ofZ_lt. lia. Qed.
Lemma ofN_neq0 n : (0 < n)%nat -> ofN n <> 0.
Proof. intros H E. apply ofN_pos in H. rewrite E in H. exact (Qclt_not_eq _ _ H eq_refl). Qed.

(** Basic order facts often needed outside linear arithmetic. *)
Lemma Qc_sq_nonneg (x : Qc) : 0 <= x * x.
Proof. qcnra. Qed.
Lemma Qcmult_nonneg x y : 0 <= x -> 0 <= y -> 0 <= x * y.
Proof. intros. qcnra. Qed.
Lemma Qcmult_pos x y : 0 < x -> 0 < y -> 0 < x * y.
Proof. intros. qcnra. Qed.
Lemma Qcinv_pos x : 0 < x -> 0 < / x.
Proof.
  intro H. assert (Hn : x <> 0) by (intro E; subst; exact (Qclt_not_eq _ _ H eq_refl)).
  assert (x * / x = 1) by (apply Qcmult_inv_r; exact Hn).
  destruct (Qclt_le_dec 0 (/ x)) as [L|L]; auto. exfalso. qcnra.
Qed.
Lemma Qcdiv_le_l x y z : 0 < z -> x <= y * z -> x / z <= y.
Proof.
  intros Hz H. assert (Hi := Qcinv_pos z Hz).
  assert (Hn : z <> 0) by (intro E; subst; exact (Qclt_not_eq _ _ Hz eq_refl)).
  assert (E : z * / z = 1) by (apply Qcmult_inv_r; exact Hn).
  assert (x * / z <= y * z * / z) by qcnra.
  replace (y * z * / z) with y in H0; [exact H0|].
  rewrite <- Qcmult_assoc, E. ring.
Qed.
Lemma Qcdiv_mult_l z x : z <> 0 -> z * (x / z) = x.
Proof. intro. field. assumption. Qed.

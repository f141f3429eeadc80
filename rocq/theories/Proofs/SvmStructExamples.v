(** One sample, x = 1 of class 0 of two: the best weights are (1/2, -1/2), for SVM^multiclass (50, -50). *)
From Coq Require Import Lia.
From Verif Require Import Base.Sums Spec.NSlackSpec Spec.SvmStructSpec Proofs.Arrays Proofs.SvmStruct.

Definition ex51_S : list (list Qc * nat) := [([1], 0%nat)].
Definition ex51_w : list Qc := [ofN 50; - ofN 50].
Definition ex51_v : list Qc := [/ (1 + 1); - / (1 + 1)].
(** classes 1 and 2, the first in a tie *)
Definition ex51_line (w x : list Qc) : list Qc :=
  (if Qcltb (class_score 1 w x 0) (class_score 1 w x 1) then ofN 2 else ofN 1) :: tab1 2 (class_score 1 w x).
Definition ex51_sv : svm_multiclass := SvmMulticlass (fun _ _ => ex51_w) (fun w S => map (fun p => ex51_line w (fst p)) S).
Lemma ex51_classifies : svm_classifies ex51_sv 2 1.
Proof.
  intros w S. cbn [sv_classify ex51_sv]. induction S as [|p S IH]; [constructor|]. cbn [map]. constructor; [|exact IH].
  unfold ex51_line. destruct (Qcltb_spec (class_score 1 w (fst p) 0) (class_score 1 w (fst p) 1)) as [H|H].
  - exists 2%nat. split; [lia|]. split; [|reflexivity]. intros [|[|[|y]]] Hy; try lia; cbn [Nat.sub]; [apply Qclt_le_weak; exact H|apply Qcle_refl].
  - exists 1%nat. split; [lia|]. split; [|reflexivity]. intros [|[|[|y]]] Hy; try lia; cbn [Nat.sub]; [apply Qcle_refl|]. qclra.
Qed.
Lemma ex51_scaled : vscale (/ ofN 100) ex51_w = ex51_v.
Proof. unfold vscale, ex51_w, ex51_v. cbn [map]. f_equal; [|f_equal]; apply Qc_is_canon; vm_compute; reflexivity. Qed.
Lemma square_nonneg (a : Qc) : 0 <= a * a.
Proof. pose proof (normsq_nonneg [a]) as H. unfold normsq in H. rewrite dot_cons, dot_nil_l, Qcplus_0_r in H. exact H. Qed.
Lemma ex51_minimal : near_minimal (mc_task 2 1 (fun _ => 1)) (2 * 1) 1 ex51_S ex51_v 0.
Proof.
  split; [reflexivity|]. exists [0]. split.
  - constructor; [|constructor]. split.
    + exists 0%nat. split; [cbn; lia|]. apply Qc_is_canon. vm_compute. reflexivity.
    + intros [|[|y]] Hy; cbn in Hy; try lia; vm_compute; discriminate.
  - intros v hv Lv Hv. inversion Hv as [|? h ? r H1 H2]; subst. inversion H2; subst. clear H2 Hv.
    destruct v as [|a [|b [|c v]]]; try discriminate. destruct H1 as [_ B]. cbn [fst snd] in B.
    pose proof (B 0%nat ltac:(cbn; lia)) as B0. pose proof (B 1%nat ltac:(cbn; lia)) as B1. clear B Lv.
    unfold margin in B0, B1. cbn [t_loss t_feat mc_task Nat.eqb] in B0, B1.
    assert (E0 : dot [a; b] (class_feature 1 2 1 [1] 0) = a).
    { change (class_feature 1 2 1 [1] 0) with [1 * 1; 0]. rewrite !dot_cons, dot_nil_l. ring. }
    assert (E1 : dot [a; b] (class_feature 1 2 1 [1] 1) = b).
    { change (class_feature 1 2 1 [1] 1) with [0; 1 * 1]. rewrite !dot_cons, dot_nil_l. ring. }
    rewrite E0, E1 in B1. rewrite E0 in B0. clear E0 E1.
    unfold primal_value, normsq. rewrite !dot_cons, dot_nil_l. change (lsum [h]) with (h + 0).
    assert (EL : 1 * lsum [0] + dot ex51_v ex51_v / (1 + 1) = / ((1 + 1) * (1 + 1))) by (apply Qc_is_canon; vm_compute; reflexivity).
    assert (ER : 1 * (h + 0) + (a * a + (b * b + 0)) / (1 + 1) + 0 = h + (a * a + b * b) / (1 + 1)) by (field; discriminate).
    rewrite EL, ER. clear EL ER.
    assert (H0 : 0 <= h) by qclra. assert (H1 : 1 - (a - b) <= h) by qclra. clear B0 B1.
    assert (HQ : (a * a + b * b) / (1 + 1) = (a + b) * (a + b) / ((1 + 1) * (1 + 1)) + (a - b) * (a - b) / ((1 + 1) * (1 + 1))) by (field; split; discriminate).
    assert (P : 0 <= (a + b) * (a + b) / ((1 + 1) * (1 + 1))).
    { unfold Qcdiv. apply Qcmult_nonneg; [|vm_compute; discriminate]. apply square_nonneg. }
    rewrite HQ. set (q := (a + b) * (a + b) / ((1 + 1) * (1 + 1))) in *. set (t := a - b) in *. clearbody q t. clear HQ.
    assert (E4 : (t * t) / ((1 + 1) * (1 + 1)) = / ((1 + 1) * (1 + 1)) + (t - 1) * / (1 + 1) + (t - 1) * (t - 1) / ((1 + 1) * (1 + 1))) by (field; split; discriminate).
    rewrite E4. assert (S1 : 0 <= (t - 1) * (t - 1) / ((1 + 1) * (1 + 1))).
    { unfold Qcdiv. apply Qcmult_nonneg; [|vm_compute; discriminate]. apply square_nonneg. }
    set (s := (t - 1) * (t - 1) / ((1 + 1) * (1 + 1))) in *. clearbody s. clear E4.
    assert (HT : 0 <= h + (t - 1) * / (1 + 1)).
    { assert (Q : (t - 1) * / (1 + 1) + (t - 1) * / (1 + 1) = t - 1) by (field; discriminate). set (z := (t - 1) * / (1 + 1)) in *. clearbody z. qclra. }
    set (z := (t - 1) * / (1 + 1)) in *. clearbody z. set (c4 := / ((1 + 1) * (1 + 1))). clearbody c4. qclra.
Qed.

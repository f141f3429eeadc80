(** Batch Frank-Wolfe: the certificate is about the weights before the last step. *)
From Coq Require Import Permutation.
From Verif Require Import Proofs.Arrays Proofs.LearnerProofs Proofs.NSlackExamples Proofs.OneSlackExamples Spec.TaskInstances Proofs.FrankWolfeProofs Proofs.FrankWolfeProofs4
  Model.FrankWolfe Spec.FWRateSpec Proofs.FWRate.
(** one sample, two classes, C = 4, tolerance 2, fixed steps *)
Definition ex29_prm := FWParams (ofN 4) 10 (1 + 1) true false 1 true.
Lemma map_this (a b : list Qc) : map this a = map this b -> a = b.
Proof. revert b. induction a as [|x a IH]; intros [|y b] H; cbn in H; try discriminate; auto. injection H as E1 E2. f_equal; auto. apply Qc_is_canon. rewrite E1. reflexivity. Qed.
Lemma ex29_fit : exists l o, fw_fit ex29_prm ex10_bm ex9_X ex9_Y ex11_sched None = Ok ([ofN 4; - ofN 4], l, [ofN 4; o], [0; 0]).
Proof.
  assert (K : match fw_fit ex29_prm ex10_bm ex9_X ex9_Y ex11_sched None with Ok (w, _, p, c) => map this w = map this [ofN 4; - ofN 4] /\ (exists o, p = [nth 0 p 0; o]) /\ this (nth 0 p 0) = this (ofN 4) /\ map this c = map this [0; 0] | Err _ => False end).
  { vm_compute. split; [reflexivity|]. split; [eexists; reflexivity|]. split; reflexivity. }
  destruct (fw_fit ex29_prm ex10_bm ex9_X ex9_Y ex11_sched None) as [[[[w l] p] c]|]; [|contradiction]. destruct K as [K1 [[o K2] [K3 K4]]]. apply map_this in K1, K4. subst w c.
  exists l, o. assert (K5 : nth 0 p 0 = ofN 4) by (apply Qc_is_canon; rewrite K3; reflexivity). rewrite K5 in K2. rewrite K2. reflexivity.
Qed.
Lemma ex29_zero : hinges ex9_task [0; 0] (combine ex9_X ex9_Y) [1].
Proof.
  constructor; [|constructor]. split.
  - exists 1%nat. split; [cbn; lia|]. apply Qc_is_canon. vm_compute. reflexivity.
  - intros y' Hy. cbn in Hy. destruct y' as [|[|y']]; [| |exfalso; lia]; vm_compute; discriminate.
Qed.
Lemma ex29_far : ~ within ex9_task 2 (ofN 4) (combine ex9_X ex9_Y) [ofN 4; - ofN 4] (ofN 4 * ofN 1 * (1 + 1)).
Proof.
  intros [hs [HH B]]. specialize (B [0; 0] [1] eq_refl ex29_zero). unfold hinges in HH. cbn [combine ex9_X ex9_Y] in HH. inversion HH as [|s h ? r HH1 HH2 E1 E2]; subst. inversion HH2; subst. destruct HH1 as [_ HB].
  assert (HZ : 0 <= h). { specialize (HB 0%nat ltac:(cbn; lia)). eapply Qcle_trans; [|exact HB]. vm_compute. discriminate. }
  assert (V : primal_value (ofN 4) [ofN 4; - ofN 4] [h] = ofN 4 * h + ofN 16).
  { unfold primal_value. replace (normsq [ofN 4; - ofN 4] / (1 + 1)) with (ofN 16) by (apply Qc_is_canon; vm_compute; reflexivity). replace (lsum [h]) with h by (cbn; ring). reflexivity. }
  assert (V' : primal_value (ofN 4) [0; 0] [1] + ofN 4 * ofN 1 * (1 + 1) = ofN 12) by (apply Qc_is_canon; vm_compute; reflexivity).
  rewrite V, V' in B. assert (P : 0 <= ofN 4 * h) by (apply Qcmult_nonneg; auto; apply ofN_nonneg). set (a := ofN 4 * h) in *. clearbody a.
  assert (Q : ofN 12 < ofN 16) by (vm_compute; reflexivity). set (u := ofN 12) in *. set (v := ofN 16) in *. clearbody u v. clear - B P Q. assert (v <= u) by qclra. revert Q. apply Qcle_not_lt. auto.
Qed.
Lemma ex29_bounded : bounded ex9_task (Q2Qc (3 # 2)) 1 (combine ex9_X ex9_Y).
Proof.
  split; [vm_compute; discriminate|]. split; [vm_compute; discriminate|]. intros p y' [<-|[]] L. cbn [t_label ex9_task mc_task fst] in L.
  destruct y' as [|[|y']]; [| |lia]; (split; [|split]); vm_compute; discriminate.
Qed.
Lemma ex29_usable : fw_usable ex9_task 2 ex9_X ex9_Y ex10_bm /\ batch_exact ex10_bm ex9_task 2 ex9_X ex9_Y.
Proof.
  apply (mc_fw_usable ex9_clf); [reflexivity|cbn; lia|reflexivity| |repeat constructor|reflexivity|repeat constructor].
  intros _ [|[|s]] H; [reflexivity|reflexivity|]. cbn in H. exfalso. lia.
Qed.

(** decay_exponent=0 with the default learning rate. *)
From Coq Require Import ZArith Permutation.
From Verif Require Import Model.Subgradient Model.BatchInstances Spec.TaskInstances Proofs.Arrays Proofs.LossProofs Proofs.LearnerProofs
  Proofs.NSlackExamples Proofs.OneSlackExamples Spec.SubgradientSpec Spec.SubgradientRateSpec Proofs.SubgradientRate7 Proofs.SubgradientConstant.

Definition ex60_S : list (list Qc * nat) := [([1], 0%nat)].
Definition ex60_prm (C : Qc) (lr : option Qc) (k : nat) : sg_params := SGParams C k 0 lr 1 4 0 (ofN 10) (Some (-1)%Z) AvgNone true.
Lemma ex60_ones : ones ex60_S.
Proof. repeat constructor. Qed.
Lemma ex60_half : hinges ex9_task [Q2Qc (1 # 2); Q2Qc (-1 # 2)] ex60_S [0].
Proof. constructor; [|constructor]. apply is_hinge0; [discriminate|vm_compute; discriminate|left; reflexivity]. Qed.
Lemma auto_refuted k : (0 < k)%nat -> exists w c,
  sg_fit (ex60_prm (ofN 10) None k) ex10_bm (fun _ S => S) false ex60_S sg_new = Ok (SGLearner k (Some (w, ofN 10, c))) /\ ~ near_minimal ex9_task 2 (ofN 10) ex60_S w 1.
Proof.
  intro Hk. assert (EK : ofN 10 * ofN (length ex60_S) = ofN 10) by (apply Qc_is_canon; vm_compute; reflexivity).
  destruct (const_fit ex9_task 2 (ex60_prm (ofN 10) None k) ex10_bm ex60_S (1 + 1) (ofN 10) (fun _ S => S)) with (warm := false) (L := sg_new) as [w [c [A1 [A2 [_ [A3 _]]]]]].
  - reflexivity.
  - reflexivity.
  - reflexivity.
  - reflexivity.
  - split; reflexivity.
  - reflexivity.
  - apply ones_oracle, ex60_ones.
  - apply ones_batches, ex60_ones.
  - apply ones_spread, ex60_ones.
  - discriminate.
  - cbn. lia.
  - reflexivity.
  - cbn [ex60_prm sg_C]. rewrite EK. apply Qcle_refl.
  - auto.
  - reflexivity.
  - vm_compute. discriminate.
  - right. split; [reflexivity|]. symmetry. exact EK.
  - exists w, c. split; [exact A1|]. destruct (A3 Hk (eq_sym EK)) as [S' [Yh [HP [LY EW]]]].
    apply Permutation_sym, Permutation_length_1_inv in HP. subst S'. cbn [map fst snd] in LY, EW.
    assert (exists y, Yh = [y] /\ (y < 2)%nat) as [y [-> Hy]].
    { destruct Yh as [|y [|z Yh]]; inversion LY; subst; [exists y; split; [reflexivity|assumption]|]. match goal with H : Forall2 _ [] _ |- _ => inversion H end. }
    apply near_fails with (v := [Q2Qc (1 # 2); Q2Qc (-1 # 2)]) (hv := [0]); [|reflexivity|exact ex60_half].
    intros hs H. inversion H as [|p h S hs' H1 H2]; subst p S hs. inversion H2; subst hs'. cbn [fst snd] in H1.
    destruct y as [|[|y]]; [| |lia].
    + assert (W : w = [0; 0]) by (rewrite EW; apply maps_this; vm_compute; reflexivity). rewrite W in *. apply hinge0 in H1. destruct H1 as [_ H1].
      apply Qclt_le_trans with (ofN 10); [vm_compute; reflexivity|]. unfold primal_value. cbn [lsum]. replace (normsq [0; 0] / (1 + 1)) with 0 by (apply Qc_is_canon; vm_compute; reflexivity).
      assert (Q : ofN 10 * 1 <= ofN 10 * h) by (rewrite !(Qcmult_comm (ofN 10)); apply Qcmult_le_compat_r; [clear - H1; qclra|discriminate]).
      rewrite Qcmult_1_r in Q. replace (ofN 10 * (h + 0) + 0) with (ofN 10 * h) by ring. exact Q.
    + assert (W : w = [ofN 10; - ofN 10]) by (rewrite EW; apply maps_this; vm_compute; reflexivity). rewrite W in *. apply hinge0 in H1. destruct H1 as [H1 _].
      apply Qclt_le_trans with (ofN 100); [vm_compute; reflexivity|]. unfold primal_value. cbn [lsum]. replace (normsq [ofN 10; - ofN 10] / (1 + 1)) with (ofN 100) by (apply Qc_is_canon; vm_compute; reflexivity).
      assert (Q : 0 <= ofN 10 * h) by (apply Qcmult_nonneg; [discriminate|exact H1]). replace (ofN 10 * (h + 0) + ofN 100) with (ofN 10 * h + ofN 100) by ring.
      set (x := ofN 10 * h) in *. set (y := ofN 100). clearbody x y. clear - Q. qclra.
Qed.
Lemma ex60_minimal : near_minimal ex9_task 2 (ofN 10) ex60_S [Q2Qc (1 # 2); Q2Qc (-1 # 2)] 0.
Proof.
  split; [reflexivity|]. exists [0]. split; [exact ex60_half|]. intros v hs Hv H. destruct (two_weights v Hv) as [a [b ->]].
  inversion H as [|p h S hs' H1 H2]; subst p S hs. inversion H2; subst hs'. cbn [fst snd] in H1. apply hinge0 in H1. destruct H1 as [H0 H1].
  unfold primal_value. cbn [lsum]. assert (E : ofN 10 * (0 + 0) + normsq [Q2Qc (1 # 2); Q2Qc (-1 # 2)] / (1 + 1) = Q2Qc (1 # 4)) by (apply Qc_is_canon; vm_compute; reflexivity). rewrite E.
  assert (A := Qc_sq_nonneg (a - b - 1)). assert (B := Qc_sq_nonneg (a + b)). unfold normsq. replace (dot [a; b] [a; b]) with (a * a + b * b) by (cbn; ring).
  assert (E4 : (a * a + b * b) / (1 + 1) + (a * a + b * b) / (1 + 1) + ((a * a + b * b) / (1 + 1) + (a * a + b * b) / (1 + 1)) = (a + b) * (a + b) + ((a - b - 1) * (a - b - 1) + (a - b) + (a - b) - 1)).
  { field. discriminate. }
  set (N := (a * a + b * b) / (1 + 1)) in *. set (x := (a + b) * (a + b)) in *. set (y := (a - b - 1) * (a - b - 1)) in *. clearbody N x y.
  assert (P : h <= ofN 10 * (h + 0)).
  { replace (ofN 10 * (h + 0)) with (h + ofN 9 * h) by (rewrite (ofN_S 9); ring). assert (Q : 0 <= ofN 9 * h) by (apply Qcmult_nonneg; [discriminate|exact H0]). set (z := ofN 9 * h) in *. clearbody z. clear - Q. qclra. }
  assert (EQ : Q2Qc (1 # 4) + Q2Qc (1 # 4) + (Q2Qc (1 # 4) + Q2Qc (1 # 4)) = 1) by (apply Qc_is_canon; vm_compute; reflexivity).
  set (q := Q2Qc (1 # 4)) in *. set (z := ofN 10 * (h + 0)) in *. set (t := a - b) in *. clearbody t q z. clear - A B H0 H1 E4 P EQ. rewrite Qcplus_0_r. qclra.
Qed.

(** One sample of two classes: its minimum, and the prediction there. *)
From Coq Require Import ZArith.
From Verif Require Import Spec.AgreeSpec Proofs.NSlackExamples Proofs.OneSlackExamples Proofs.SubgradientRate7 Proofs.Agree Proofs.UnstructuredProofs2.

Definition ex32_u : list Qc := [Q2Qc (1 # 2); Q2Qc (-1 # 2)].
Lemma ex32_length : forall y', t_label ex9_task [1] y' -> length (t_feat ex9_task [1] y') = 2%nat.
Proof. intros y' L. cbn in L. destruct y' as [|[|y']]; [reflexivity|reflexivity|lia]. Qed.
Lemma ex32_min : near_minimal ex9_task 2 1 (combine ex9_X ex9_Y) ex32_u 0.
Proof.
  split; [reflexivity|]. exists [0]. split.
  { constructor; [|constructor]. apply is_hinge0; [apply Qcle_refl|vm_compute; discriminate|left; reflexivity]. }
  intros v hv Lv Hv. destruct v as [|a [|b [|]]]; try discriminate. cbn [combine ex9_X ex9_Y] in Hv. inversion Hv as [|p h ps hs Hh Hr]; subst. inversion Hr; subst. clear Hr Hv.
  cbn [fst snd] in Hh. destruct (hinge0 a b h Hh) as [H0 H1].
  replace (primal_value 1 ex32_u [0]) with (Q2Qc (1 # 4)) by (apply Qc_is_canon; vm_compute; reflexivity).
  unfold primal_value. cbn [lsum]. change (normsq [a; b]) with (a * a + (b * b + 0)).
  set (q := (a * a + (b * b + 0)) / (1 + 1)) in *. set (s := a - b) in *.
  assert (QS : s * s <= q + q + (q + q)).
  { unfold q, s. assert (Z := Qc_sq_nonneg (a + b)). replace ((a * a + (b * b + 0)) / (1 + 1) + (a * a + (b * b + 0)) / (1 + 1) + ((a * a + (b * b + 0)) / (1 + 1) + (a * a + (b * b + 0)) / (1 + 1))) with ((a - b) * (a - b) + (a + b) * (a + b)) by (field; discriminate).
    set (x := (a + b) * (a + b)) in *. set (y := (a - b) * (a - b)). clearbody x y. clear - Z. qclra. }
  assert (Z := Qc_sq_nonneg (1 - s)). replace ((1 - s) * (1 - s)) with (1 - s - s + s * s) in Z by ring.
  replace (1 * (h + 0) + q + 0) with (h + q) by ring. clearbody q s. set (x := s * s) in *. clearbody x. clear - QS Z H0 H1. qccra.
Qed.
Lemma ex32_winner D : D * (1 + 1) < 1 -> clear_winner ex9_task ex32_u [1] 0%nat D.
Proof.
  intro HD. split; [cbn; lia|]. intros y' L NE. cbn in L. destruct y' as [|[|y']]; [congruence| |lia]. cbv zeta.
  replace (dot ex32_u (t_feat ex9_task [1] 0%nat) - dot ex32_u (t_feat ex9_task [1] 1%nat)) with (Q2Qc 1) by (apply Qc_is_canon; vm_compute; reflexivity).
  replace (normsq (vsub (t_feat ex9_task [1] 0%nat) (t_feat ex9_task [1] 1%nat))) with (1 + 1 : Qc) by (apply Qc_is_canon; vm_compute; reflexivity).
  split; [reflexivity|]. replace (1 * 1) with (1 : Qc) by ring. exact HD.
Qed.
Lemma ex32_met :
  near_minimal ex9_task 2 1 (combine ex9_X ex9_Y) ex32_u 0 /\ clear_winner ex9_task ex32_u [1] 0%nat (Q2Qc (2 # 5)) /\
  ~ clear_winner ex9_task ex32_u [1] 0%nat (Q2Qc (1 # 2)) /\ ofN 4 * 0 < Q2Qc (2 # 5) /\ ofN 4 * (0 + Q2Qc (1 # 10)) <= Q2Qc (2 # 5) /\
  (forall w, length w = 2%nat -> exact_inference (bm_s ex10_bm) ex9_task w [1]) /\
  (forall y', t_label ex9_task [1] y' -> length (t_feat ex9_task [1] y') = 2%nat).
Proof.
  split; [exact ex32_min|]. split; [apply ex32_winner; reflexivity|]. split.
  { intros [_ H]. destruct (H 1%nat ltac:(cbn; lia) ltac:(discriminate)) as [_ B]. vm_compute in B. discriminate. }
  split; [reflexivity|]. split; [discriminate|]. split; [|exact ex32_length].
  intros w Lw. apply (mc_exact_inference ex9_clf); [reflexivity|cbn; lia|exact Lw].
Qed.

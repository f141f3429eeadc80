From Coq Require Import ZArith Permutation.
From Verif Require Import Model.Predict Spec.PredictSpec Proofs.PredictProofs Proofs.Arrays Proofs.LossProofs Proofs.UnstructuredProofs Proofs.UnstructuredProofs2 Proofs.OneSlackCache Proofs.QPProofs.

Lemma rows_mat_ok F Xs : Forall (fun x => length x = F) Xs -> mat_ok (rows_mat F Xs).
Proof. intro H. split; [reflexivity|exact H]. Qed.
Lemma mc_pmodel_agrees {K} m w Xs : Xs <> [] -> Forall (fun x => length x = mc_features m) Xs -> batch_agrees (mc_pmodel (K := K) m) w Xs.
Proof.
  intros N H. unfold batch_agrees. cbn [mc_pmodel pm_batch pm_inf]. apply (mc_batch_inference_agrees m (rows_mat (mc_features m) Xs) w); [apply rows_mat_ok; exact H|].
  cbn [rows_mat mrows]. destruct Xs; [contradiction|simpl; lia].
Qed.
Lemma bc_pmodel_agrees {K} w Xs : Forall (fun x => length x = length w) Xs -> batch_agrees (bc_pmodel (K := K) (length w)) w Xs.
Proof.
  intros H. unfold batch_agrees. cbn [bc_pmodel pm_batch pm_inf].
  exact (proj1 (bc_batch_agrees (rows_mat (length w) Xs) (repeat 0%Z (length Xs)) w (rows_mat_ok _ _ H) eq_refl (repeat_length _ _))).
Qed.
Lemma with_defaults_agrees {X Y K} inf inf_c loss ml w (Xs : list X) : batch_agrees (with_defaults (Y := Y) (K := K) inf inf_c loss ml) w Xs.
Proof. reflexivity. Qed.
Lemma with_defaults_agrees_c {X Y K} inf inf_c loss ml w (Xs : list X) cs : cs <> [] -> batch_c_agrees (with_defaults (Y := Y) (K := K) inf inf_c loss ml) w Xs cs.
Proof. intro N. unfold batch_c_agrees. cbn [with_defaults pm_batch pm_batch_c pm_inf_c]. destruct cs; [contradiction|reflexivity]. Qed.

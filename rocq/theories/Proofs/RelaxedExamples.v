(** Training with relaxed inference: a frustrated triangle. *)
From Coq Require Import String.
From Verif Require Import Model.LP Model.Inference Model.CRF Model.Loss Model.Exhaustive Model.RelaxedCRF Spec.Energy Spec.LocalPolytope
  Spec.GraphSpec Spec.GraphTheory Spec.LossSpec Spec.BinaryLPSpec Spec.NSlackSpec Spec.RelaxedSpec
  Proofs.Arrays Proofs.GraphCRFProofs Proofs.LPProofs2 Proofs.MaxProdProofs Proofs.LearnerProofs Proofs.RelaxedTask Proofs.RelaxedLP Proofs.RelaxedTraining Proofs.RelaxedTraining2.
Open Scope Qc_scope.

Definition ex48_half : Qc := Q2Qc (1 # 2).
Definition ex48_g : graph_crf := GraphCRF 2 1 false.
Definition ex48_x : graph_x := GraphX (Mat 3 1 [[0]; [0]; [1]]) [(0, 1); (1, 2); (0, 2)]%nat.
Definition ex48_y : list nat := [0; 0; 1]%nat.
Definition ex48_cw : list Qc := [1; 1].
Definition ex48_T := relaxed_task ex48_g ex48_cw.
(** edges reward disagreement; edges reward agreement *)
Definition ex48_wa : list Qc := map ofZ [0; 0; 0; 2; 0]%Z.
Definition ex48_wb : list Qc := map ofZ [1; 0; 2; 0; 2]%Z.
Definition ex48_um : mat := Mat 3 2 (repeat (repeat ex48_half 2) 3).
Definition ex48_ra : result := RMarginals ex48_um (Mat 3 4 (repeat [0; ex48_half; ex48_half; 0] 3)).
Definition ex48_rb : result := RMarginals ex48_um (Mat 3 4 (repeat [ex48_half; 0; 0; ex48_half] 3)).
Definition ex48_hinge_a : Qc := Q2Qc (7 # 2).
Definition ex48_hinge_b : Qc := ofZ 6.
(** the constraint of the first answer *)
Definition ex48_con : ncon result :=
  (ex48_ra, vsub (t_feat ex48_T ex48_x (RLabels ex48_y)) (t_feat ex48_T ex48_x ex48_ra), t_loss ex48_T (RLabels ex48_y) ex48_ra).

Lemma ex48_valid : valid_x ex48_g ex48_x.
Proof. split; repeat constructor. Qed.
Lemma ex48_sample : graph_sample ex48_g ex48_x ex48_y.
Proof. split; [repeat constructor|]. split; [reflexivity|]. split; [repeat constructor|]. split; [cbn; lia|]. split; [reflexivity|repeat constructor]. Qed.
Lemma ex48_ok r : r = ex48_ra \/ r = ex48_rb -> t_label ex48_T ex48_x r.
Proof.
  intros H. assert (forall pm, pm = Mat 3 4 (repeat [0; ex48_half; ex48_half; 0] 3) \/ pm = Mat 3 4 (repeat [ex48_half; 0; 0; ex48_half] 3) ->
    t_label ex48_T ex48_x (RMarginals ex48_um pm)) as E; [|destruct H as [->| ->]; apply E; auto].
  intros pm Hp. cbn [t_label ex48_T relaxed_task]. split; [repeat constructor|]. split; [destruct Hp as [->| ->]; repeat constructor|].
  change (gx_edges ex48_x) with [(0, 1); (1, 2); (0, 2)]%nat. cbn [ex48_g g_states mrows gx_features ex48_x].
  destruct Hp as [->| ->]; constructor;
    try (intros [|[|[|]]] [|[|]] [|[|]] ? ? ?; simpl in *; try lia; vm_compute; discriminate);
    try (intros [|[|[|]]] [|[|]] ? ?; simpl in *; try lia; vm_compute; discriminate);
    try (intros [|[|[|]]] [|[|]] ? ?; simpl in *; try lia; apply Qc_is_canon; vm_compute; reflexivity);
    intros [|[|[|]]] ?; simpl in *; try lia; apply Qc_is_canon; vm_compute; reflexivity.
Qed.
Lemma ex48_sum2 (f : nat -> Qc) : sumn 2 f = f 0%nat + f 1%nat.
Proof. rewrite !sumn_S, sumn_O. ring. Qed.
Lemma ex48_sum3 (f : nat -> Qc) : sumn 3 f = f 0%nat + f 1%nat + f 2%nat.
Proof. rewrite !sumn_S, sumn_O. ring. Qed.
(** the linear inequalities of the triangle; [a], [b], [c] the marginals of label 1, [p]-[q] the edges *)
Ltac ex48_facts mu nu L :=
  destruct L as [_ L2 L3 L4 L5]; cbn [length] in L2, L4, L5;
  assert (A0 := L3 0%nat ltac:(lia)); assert (A1 := L3 1%nat ltac:(lia)); assert (A2 := L3 2%nat ltac:(lia));
  assert (F00 := L4 0%nat 0%nat ltac:(lia) ltac:(lia)); assert (F01 := L4 0%nat 1%nat ltac:(lia) ltac:(lia));
  assert (F10 := L4 1%nat 0%nat ltac:(lia) ltac:(lia)); assert (F11 := L4 1%nat 1%nat ltac:(lia) ltac:(lia));
  assert (F20 := L4 2%nat 0%nat ltac:(lia) ltac:(lia)); assert (F21 := L4 2%nat 1%nat ltac:(lia) ltac:(lia));
  assert (S00 := L5 0%nat 0%nat ltac:(lia) ltac:(lia)); assert (S01 := L5 0%nat 1%nat ltac:(lia) ltac:(lia));
  assert (S10 := L5 1%nat 0%nat ltac:(lia) ltac:(lia)); assert (S11 := L5 1%nat 1%nat ltac:(lia) ltac:(lia));
  assert (S20 := L5 2%nat 0%nat ltac:(lia) ltac:(lia)); assert (S21 := L5 2%nat 1%nat ltac:(lia) ltac:(lia));
  assert (P000 := L2 0%nat 0%nat 0%nat ltac:(lia) ltac:(lia) ltac:(lia)); assert (P001 := L2 0%nat 0%nat 1%nat ltac:(lia) ltac:(lia) ltac:(lia));
  assert (P010 := L2 0%nat 1%nat 0%nat ltac:(lia) ltac:(lia) ltac:(lia)); assert (P011 := L2 0%nat 1%nat 1%nat ltac:(lia) ltac:(lia) ltac:(lia));
  assert (P100 := L2 1%nat 0%nat 0%nat ltac:(lia) ltac:(lia) ltac:(lia)); assert (P101 := L2 1%nat 0%nat 1%nat ltac:(lia) ltac:(lia) ltac:(lia));
  assert (P110 := L2 1%nat 1%nat 0%nat ltac:(lia) ltac:(lia) ltac:(lia)); assert (P111 := L2 1%nat 1%nat 1%nat ltac:(lia) ltac:(lia) ltac:(lia));
  assert (P200 := L2 2%nat 0%nat 0%nat ltac:(lia) ltac:(lia) ltac:(lia)); assert (P201 := L2 2%nat 0%nat 1%nat ltac:(lia) ltac:(lia) ltac:(lia));
  assert (P210 := L2 2%nat 1%nat 0%nat ltac:(lia) ltac:(lia) ltac:(lia)); assert (P211 := L2 2%nat 1%nat 1%nat ltac:(lia) ltac:(lia) ltac:(lia));
  clear L2 L3 L4 L5; rewrite ex48_sum2 in A0, A1, A2, F00, F01, F10, F11, F20, F21, S00, S01, S10, S11, S20, S21;
  cbn [nth fst snd] in *;
  unfold marginal_score; cbn [length]; rewrite !ex48_sum3, !ex48_sum2; cbn;
  rewrite ?Qcmult_plus_distr_r, ?Qcmult_plus_distr_l, ?Qcmult_0_r, ?Qcmult_1_r, ?Qcmult_1_l.
Lemma ex48_bound_a mu nu : local_polytope 3 2 [(0, 1); (1, 2); (0, 2)]%nat mu nu ->
  marginal_score 3 2 [(0, 1); (1, 2); (0, 2)]%nat (augmented (node_scores ex48_g ex48_x ex48_wa) (get1 ex48_cw) ex48_y) (edge_scores ex48_g ex48_wa) mu nu
  <= ofZ 4 + ex48_hinge_a.
Proof.
  intro L. rewrite (marginal_score_ext 3 2 [(0, 1); (1, 2); (0, 2)]%nat _ (fun i s => if (lab ex48_y i =? s)%nat then 0 else 1) _
    (fun _ s t => if (s =? t)%nat then 0 else 1 + 1) mu mu nu nu).
  - replace (ofZ 4 + ex48_hinge_a) with (1 + 1 + 1 + 1 + 1 + 1 + 1 + ex48_half) by (apply Qc_is_canon; vm_compute; reflexivity).
    assert (HH : ex48_half + ex48_half = 1) by (apply Qc_is_canon; vm_compute; reflexivity).
    generalize dependent ex48_half. intros half HH. ex48_facts mu nu L. qclra.
  - reflexivity.
  - reflexivity.
  - intros [|[|[|]]] [|[|]] ? ?; try lia; apply Qc_is_canon; vm_compute; reflexivity.
  - intros [|[|[|]]] [|[|]] [|[|]] ? ? ?; simpl in *; try lia; apply Qc_is_canon; vm_compute; reflexivity.
Qed.
Lemma ex48_bound_b mu nu : local_polytope 3 2 [(0, 1); (1, 2); (0, 2)]%nat mu nu ->
  marginal_score 3 2 [(0, 1); (1, 2); (0, 2)]%nat (augmented (node_scores ex48_g ex48_x ex48_wb) (get1 ex48_cw) ex48_y) (edge_scores ex48_g ex48_wb) mu nu
  <= ofZ 2 + ex48_hinge_b.
Proof.
  intro L. rewrite (marginal_score_ext 3 2 [(0, 1); (1, 2); (0, 2)]%nat _
    (fun i s => match i, s with 2%nat, 0%nat => 1 + 1 | 2%nat, _ => 0 | _, 0%nat => 0 | _, _ => 1 end) _
    (fun _ s t => if (s =? t)%nat then 1 + 1 else 0) mu mu nu nu).
  - replace (ofZ 2 + ex48_hinge_b) with (1 + 1 + 1 + 1 + 1 + 1 + 1 + 1) by (apply Qc_is_canon; vm_compute; reflexivity).
    ex48_facts mu nu L. qclra.
  - reflexivity.
  - reflexivity.
  - intros [|[|[|]]] [|[|]] ? ?; try lia; apply Qc_is_canon; vm_compute; reflexivity.
  - intros [|[|[|]]] [|[|]] [|[|]] ? ? ?; simpl in *; try lia; apply Qc_is_canon; vm_compute; reflexivity.
Qed.
Lemma ex48_hinges :
  is_hinge ex48_T ex48_wa ex48_x (RLabels ex48_y) ex48_hinge_a /\ margin ex48_T ex48_wa ex48_x (RLabels ex48_y) ex48_ra = ex48_hinge_a /\
  is_hinge ex48_T ex48_wb ex48_x (RLabels ex48_y) ex48_hinge_b /\ margin ex48_T ex48_wb ex48_x (RLabels ex48_y) ex48_rb = ex48_hinge_b.
Proof.
  assert (EA : margin ex48_T ex48_wa ex48_x (RLabels ex48_y) ex48_ra = ex48_hinge_a) by (apply Qc_is_canon; vm_compute; reflexivity).
  assert (EB : margin ex48_T ex48_wb ex48_x (RLabels ex48_y) ex48_rb = ex48_hinge_b) by (apply Qc_is_canon; vm_compute; reflexivity).
  assert (HY : labelling 3 2 ex48_y) by apply ex48_sample.
  split; [|split; [exact EA|split; [|exact EB]]].
  - split; [exists ex48_ra; split; [apply ex48_ok; auto|exact EA]|]. intros r Hr.
    unfold ex48_T. rewrite (relaxed_margin ex48_g ex48_cw ex48_x ex48_y ex48_wa ex48_valid) by (exact HY || exact Hr || reflexivity || (cbn; lia)).
    assert (B := ex48_bound_a _ _ (label_polytope ex48_g ex48_cw ex48_x ex48_valid r Hr)).
    replace (dot ex48_wa (t_feat (relaxed_task ex48_g ex48_cw) ex48_x (RLabels ex48_y))) with (ofZ 4) by (apply Qc_is_canon; vm_compute; reflexivity).
    revert B. cbn [gx_edges ex48_x mrows gx_features g_states ex48_g].
    match goal with |- ?a <= _ -> ?b - _ <= _ => change b with a; generalize a end. generalize (ofZ 4), ex48_hinge_a. intros; qclra.
  - split; [exists ex48_rb; split; [apply ex48_ok; auto|exact EB]|]. intros r Hr.
    unfold ex48_T. rewrite (relaxed_margin ex48_g ex48_cw ex48_x ex48_y ex48_wb ex48_valid) by (exact HY || exact Hr || reflexivity || (cbn; lia)).
    assert (B := ex48_bound_b _ _ (label_polytope ex48_g ex48_cw ex48_x ex48_valid r Hr)).
    replace (dot ex48_wb (t_feat (relaxed_task ex48_g ex48_cw) ex48_x (RLabels ex48_y))) with (ofZ 2) by (apply Qc_is_canon; vm_compute; reflexivity).
    revert B. cbn [gx_edges ex48_x mrows gx_features g_states ex48_g].
    match goal with |- ?a <= _ -> ?b - _ <= _ => change b with a; generalize a end. generalize (ofZ 2), ex48_hinge_b. intros; qclra.
Qed.
Lemma ex48_true_hinge : is_hinge (g_task ex48_g ex48_cw) ex48_wa ex48_x ex48_y (ofZ 3).
Proof.
  split.
  - exists [1; 1; 0]%nat. split; [split; [reflexivity|repeat constructor]|apply Qc_is_canon; vm_compute; reflexivity].
  - assert (Q : forallb (fun z => Qcleb (margin (g_task ex48_g ex48_cw) ex48_wa ex48_x ex48_y z) (ofZ 3)) (product_range 2 3) = true)
      by (vm_compute; reflexivity).
    intros z Hz. rewrite forallb_forall in Q. specialize (Q z (proj2 (CRFProofs.product_range_in 2 3 z) Hz)).
    match type of Q with Qcleb ?a ?b = true => destruct (Qcleb_spec a b) end; [assumption|discriminate].
Qed.
(** the duplicate test drops the constraint of the second answer *)
Lemma ex48_duplicate mixed prm b meth :
  let m := relaxed_smodel b meth ex48_g ex48_cw in
  sm_laug m ex48_x (RLabels ex48_y) ex48_wb = Ok ex48_rb ->
  exists delta loss, find_constraint m ex48_x (RLabels ex48_y) ex48_wb None true = Ok (ex48_rb, delta, ex48_hinge_b, loss) /\
    snd ex48_con - dot ex48_wb (snd (fst ex48_con)) = 0 /\
    gather (plain_eqb mixed) prm ex48_wb [(0%nat, (ex48_rb, delta, ex48_hinge_b, loss))] [[ex48_con]] 0 0 = Ok ([[ex48_con]], 0%nat, ex48_hinge_b).
Proof.
  intros m E. assert (HI : implements m ex48_T (g_size ex48_g) ex48_x (RLabels ex48_y)).
  { apply relaxed_implements; [exact ex48_valid|cbn; lia|reflexivity|apply ex48_sample]. }
  assert (F := find_constraint_value m ex48_T (g_size ex48_g) ex48_x (RLabels ex48_y) ex48_wb None ex48_rb HI eq_refl (ex48_ok _ (or_intror eq_refl)) E).
  destruct ex48_hinges as (_ & _ & _ & EB). rewrite EB in F.
  replace (Qcmax ex48_hinge_b 0) with ex48_hinge_b in F by reflexivity.
  eexists. eexists. split; [exact F|]. split; [apply Qc_is_canon; vm_compute; reflexivity|].
  generalize (vsub (t_feat ex48_T ex48_x (RLabels ex48_y)) (t_feat ex48_T ex48_x ex48_rb)). intro delta. cbn [gather].
  replace (Qcltb 0 (t_loss ex48_T (RLabels ex48_y) ex48_rb)) with true by (vm_compute; reflexivity). cbn [negb nth_error bind].
  unfold check_bad_constraint. replace (Qcltb ex48_hinge_b small) with false by (vm_compute; reflexivity).
  cbn [existsb]. replace (plain_eqb mixed ex48_rb (fst (fst ex48_con))) with true by (vm_compute; reflexivity).
  cbn [orb bind]. rewrite Qcplus_0_l. reflexivity.
Qed.
Definition ex48_b (x : list Qc) : backends := Backends (fun _ => Ok x) None (fun z => z) None None.
Lemma ex48_answer : sm_laug (relaxed_smodel (ex48_b (repeat ex48_half 6 ++ concat (repeat [ex48_half; 0; 0; ex48_half] 3))) (Name "lp") ex48_g ex48_cw)
  ex48_x (RLabels ex48_y) ex48_wb = Ok ex48_rb.
Proof. vm_compute. reflexivity. Qed.

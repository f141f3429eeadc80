From Coq Require Import ZArith.
From Verif Require Import Model.NSlack Model.Instances Spec.NSlackSpec Spec.TaskInstances Proofs.Arrays Proofs.LossProofs Proofs.LearnerProofs
  Proofs.UnstructuredProofs2 Proofs.QPProofs.

(** solver answering the zero vector whenever that is feasible *)
Definition zero_solver : qp_solver := fun p =>
  if forallb (Qcleb 0) (qp_h p) && forallb (Qceqb 0) (qp_b p)
  then Some (vzero (length (qp_q p)), 0) else None.
Lemma forallb_get1 f l r : (f 0 = true) -> forallb f l = true -> f (get1 l r) = true.
Proof.
  intros H0 H. rewrite forallb_forall in H. destruct (Nat.lt_ge_cases r (length l)) as [L|L].
  - apply H. apply nth_In; auto.
  - unfold get1. rewrite nth_overflow; auto.
Qed.
Lemma zero_solver_sound : qp_sound zero_solver.
Proof.
  intros p x v H. unfold zero_solver in H. destruct (forallb (Qcleb 0) (qp_h p)) eqn:E1; [|discriminate].
  destruct (forallb (Qceqb 0) (qp_b p)) eqn:E2; [|discriminate]. injection H as <- <-. split.
  - split; [apply vzero_length|]. split; intros r _; rewrite dot_vzero_r.
    + assert (Z := forallb_get1 (Qcleb 0) (qp_h p) r eq_refl E1). destruct (Qcleb_spec 0 (get1 (qp_h p) r)); [auto|discriminate].
    + assert (Z := forallb_get1 (Qceqb 0) (qp_b p) r eq_refl E2). destruct (Qceqb_spec 0 (get1 (qp_b p) r)); [auto|discriminate].
  - unfold qp_value. rewrite dot_vzero_l, dot_vzero_r. field. discriminate.
Qed.
Lemma zero_solver_total C n psis losses sizes reg p : 0 <= C -> n_slack_problem C None n psis losses sizes reg = Ok p -> zero_solver p <> None.
Proof.
  intros HC H. unfold n_slack_problem in H. apply bind_ok in H. destruct H as [Psi [_ H]]. apply bind_ok in H. destruct H as [u [_ H]].
  apply bind_ok in H. destruct H as [N [EN H]]. injection H as <-. unfold zero_solver. cbn [qp_h qp_b qp_q forallb]. rewrite andb_true_r.
  assert (E : forallb (Qcleb 0) (vzero (mrows Psi) ++ repeat C n ++ vzero (mrows N)) = true).
  { apply forallb_forall. intros x Hx. rewrite !in_app_iff in Hx.
    assert (x = 0 \/ x = C) as [->| ->].
    { destruct Hx as [Hx|[Hx|Hx]]; apply repeat_spec in Hx; auto. }
    - reflexivity.
    - destruct (Qcleb_spec 0 C) as [_|K]; auto. exfalso. revert K. apply Qcle_not_lt. auto. }
  rewrite E. discriminate.
Qed.

Definition ex9_clf := MC 2 1 [1; 1] true false.
Definition ex9_m : smodel (list Qc) nat := mc_smodel ex9_clf.
Definition ex9_task := mc_task 2 1 (get1 [1; 1]).
Definition ex9_single : smodel (list Qc) nat := mc_smodel (MC 1 1 [1] true false).
Definition ex9_X : list (list Qc) := [[1]].
Definition ex9_Y : list nat := [0%nat].
Definition ex9_prm := NSParams 1 10 (Q2Qc (1 # 1000)) true false None (-1) (Q2Qc (1 # 1000)) 5.
(** minimises a^2 - a over 0 <= a <= 1 *)
Definition ex9_solver : qp_solver := fun p =>
  match p with
  | QP (Mat 1 1 [[P]]) [q] (Mat 2 1 [[g0]; [g1]]) [h0; h1] (Mat 0 1 []) [] =>
      if Qceqb P (1 + 1) && Qceqb q (- (1)) && Qceqb g0 (- (1)) && Qceqb g1 1 && Qceqb h0 0 && Qceqb h1 1
      then Some ([1 / (1 + 1)], - (1 / (1 + 1 + 1 + 1))) else None
  | _ => None
  end.
Lemma ex9_exact : qp_exact ex9_solver.
Proof.
  intros p x v H. unfold ex9_solver in H.
  repeat match type of H with
         | (match andb _ _ with _ => _ end) = _ => fail 1
         | (match ?b with _ => _ end) = _ => destruct b; try discriminate H
         end.
  repeat match type of H with context [Qceqb ?u ?w] => destruct (Qceqb_spec u w) as [->|]; [|rewrite ?andb_false_r in H; discriminate H] end.
  cbn [andb] in H. injection H as <- <-. split; [split|].
  - split; [reflexivity|]. split; cbn [mrows mdat qp_G qp_A qp_h]; intros r Hr; [|lia].
    destruct r as [|[|r]]; [discriminate|discriminate|lia].
  - intros z [Lz _]. cbn in Lz. destruct z as [|t [|? ?]]; try discriminate.
    unfold qp_value. cbn [qp_P qp_q mdat map]. rewrite !dot_cons. unfold dot; cbn [zipw lsum].
    assert (S := Qc_sq_nonneg (t - 1 / (1 + 1))).
    match goal with |- ?a <= ?b => replace b with (a + (t - 1 / (1 + 1)) * (t - 1 / (1 + 1))) by (field; discriminate) end.
    set (u := (t - 1 / (1 + 1)) * (t - 1 / (1 + 1))) in *. clearbody u. 
    match goal with |- ?a <= ?a + u => set (k := a); clearbody k end. qclra.
  - apply Qc_is_canon. vm_compute. reflexivity.
Qed.
Lemma ex9_ok : qp_exact ex9_solver /\ 0 <= ns_C ex9_prm /\ sm_size ex9_m = 2%nat /\
  oracle_exact ex9_m ex9_task 2 (combine ex9_X ex9_Y) /\
  yeq_ok ex9_task Nat.eqb (combine ex9_X ex9_Y) /\ zero_loss_same ex9_task (combine ex9_X ex9_Y).
Proof.
  split; [exact ex9_exact|]. split; [discriminate|]. split; [reflexivity|]. split; [|split].
  - intros p [<-|[]]. split.
    + apply (mc_implements ex9_clf); auto; repeat constructor.
    + intros w Hw. apply (mc_exact_laug ex9_clf); auto; repeat constructor.
  - intros p a b _ _ _ E. apply Nat.eqb_eq in E. subst. auto.
  - intros p y' [<-|[]] L H. cbn [fst snd ex9_task mc_task t_loss t_label] in *. destruct y' as [|[|y']]; [reflexivity| |lia].
    exfalso. revert H. apply Qclt_not_le. reflexivity.
Qed.
Lemma prune_not_consecutive : exists (limit v1 v2 v3 : Qc) (c : nat),
    limit <= v2 /\
    prune_sample limit 1 [c] [] [v1] = Ok ([c], [1%nat]) /\
    prune_sample limit 1 [c] [1%nat] [v2] = Ok ([c], [1%nat]) /\
    prune_sample limit 1 [c] [1%nat] [v3] = Ok ([], []).
Proof. exists 1, 0, 1, 0, O. split; [discriminate|]. vm_compute. auto. Qed.

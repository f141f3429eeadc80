From Coq Require Import ZArith.
From Verif Require Import Model.NSlack Spec.NSlackSpec Proofs.Arrays Proofs.LossProofs Proofs.LearnerProofs
  Proofs.QPProofs Proofs.QPProofs2 Proofs.NSlackProofs.

Lemma nslack_psis_ok {A B} d (groups : list (list (list A * B))) : Forall (fun c => length (fst c) = d) (concat groups) ->
  Forall (fun u => length u = d) (map fst (concat groups)).
Proof.
  intro HF. apply Forall_forall. intros u Hu. apply in_map_iff in Hu. destruct Hu as [c [<- Hc]]. rewrite Forall_forall in HF. auto.
Qed.
(** any feasible dual point *)
Lemma nslack_weak d C neg n groups reg p a : 0 <= reg ->
  Forall (fun c => length (fst c) = d) (concat groups) ->
  n_slack_problem C neg n (map fst (concat groups)) (map snd (concat groups)) (map (@length _) groups) reg = Ok p ->
  qp_feasible p a ->
  exists w, weights a (map fst (concat groups)) = Ok w /\ length w = d /\
    (forall idx, neg = Some idx -> forall i, In i idx -> get1 w i <= 0) /\
    forall w' xi, length w' = d -> covers w' groups xi -> - qp_value p a <= C * lsum xi + normsq w' / (1 + 1).
Proof.
  intros Hr HF HP HFe. assert (HN := nslack_of_nonempty _ _ _ _ _ _ HP).
  destruct (nslack_of_feasible d _ _ _ _ _ _ a HN HF HP) as [FE [VA LG]]. apply FE in HFe. destruct HFe as [F1 [F2 [F3 F4]]].
  exists (comb d a (map fst (concat groups))). split.
  { apply weights_comb; auto. destruct (concat groups); [congruence|discriminate]. apply nslack_psis_ok; auto. }
  split; [apply comb_length|]. split; [exact F4|]. intros w' xi Hw' HX.
  assert (WD := weak_duality_nslack d C n groups a w' xi (nslack_psis_ok d groups HF) F1 F2 F3 LG Hw' HX).
  fold (dual_value d groups a) in WD. rewrite VA by (rewrite map_length in F1; auto).
  assert (P := reg_half_nonneg reg a Hr). set (x := reg * normsq a / (1 + 1)) in *. set (y := dual_value d groups a) in *. clearbody x y. qclra.
Qed.
(** the optimal dual point, without negativity constraint *)
Lemma nslack_strong d C n groups reg p a : 0 <= reg -> 0 <= C ->
  Forall (fun c => length (fst c) = d) (concat groups) ->
  n_slack_problem C None n (map fst (concat groups)) (map snd (concat groups)) (map (@length _) groups) reg = Ok p ->
  qp_optimal p a ->
  exists w, weights a (map fst (concat groups)) = Ok w /\
    C * lsum (map (group_slack w) groups) + normsq w / (1 + 1) <= - qp_value p a + reg * normsq a / (1 + 1) + reg * (ofN n * (C * C)) /\
    forall w' xi, length w' = d -> covers w' groups xi ->
      C * lsum (map (group_slack w) groups) + normsq w / (1 + 1) <= C * lsum xi + normsq w' / (1 + 1) + reg * (ofN n * (C * C)).
Proof.
  intros Hr HC HF HP [HFe OPT]. assert (HN := nslack_of_nonempty _ _ _ _ _ _ HP).
  destruct (nslack_of_feasible d _ _ _ _ _ _ a HN HF HP) as [FE [VA LG]]. apply FE in HFe.
  exists (comb d a (map fst (concat groups))). split.
  { apply weights_comb. destruct (concat groups); [congruence|discriminate]. apply nslack_psis_ok; auto. apply HFe. }
  assert (La : length a = length (concat groups)) by (destruct HFe as [F1 _]; rewrite map_length in F1; auto).
  assert (SD : C * lsum (map (group_slack (comb d a (map fst (concat groups)))) groups)
    + normsq (comb d a (map fst (concat groups))) / (1 + 1) <= dual_value d groups a + reg * (ofN n * (C * C))).
  { apply (strong_duality_reg d C n groups a reg); auto. intros b Hb.
    destruct (nslack_of_feasible d _ _ _ _ _ _ b HN HF HP) as [FEb [VAb _]]. assert (Hb' := Hb). apply FEb in Hb. apply OPT in Hb.
    rewrite VA, VAb in Hb; auto. 2:{ destruct Hb' as [F1 _]. rewrite map_length in F1. auto. }
    set (x := dual_value d groups a) in *; set (y := dual_value d groups b) in *;
    set (u := reg * normsq a / (1 + 1)) in *; set (v := reg * normsq b / (1 + 1)) in *; clearbody x y u v; qclra. }
  rewrite VA by auto. split.
  - eapply Qcle_trans; [exact SD|]. apply Qceq_le. ring.
  - intros w' xi Hw' HX. destruct HFe as [F1 [F2 [F3 F4]]].
    assert (WD := weak_duality_nslack d C n groups a w' xi (nslack_psis_ok d groups HF) F1 F2 F3 LG Hw' HX).
    fold (dual_value d groups a) in WD. eapply Qcle_trans; [exact SD|].
    set (x := dual_value d groups a) in *. set (y := reg * (ofN n * (C * C))) in *. clearbody x y. qclra.
Qed.
(** reg = 0: the objective values agree *)
Lemma nslack_strong0 d C n groups p a : 0 <= C ->
  Forall (fun c => length (fst c) = d) (concat groups) ->
  n_slack_problem C None n (map fst (concat groups)) (map snd (concat groups)) (map (@length _) groups) 0 = Ok p ->
  qp_optimal p a ->
  exists w, weights a (map fst (concat groups)) = Ok w /\
    - qp_value p a = C * lsum (map (group_slack w) groups) + normsq w / (1 + 1) /\
    forall w' xi, length w' = d -> covers w' groups xi ->
      C * lsum (map (group_slack w) groups) + normsq w / (1 + 1) <= C * lsum xi + normsq w' / (1 + 1).
Proof.
  intros HC HF HP HO. destruct (nslack_strong d C n groups 0 p a (Qcle_refl _) HC HF HP HO) as [w [E [A B]]].
  destruct (nslack_weak d C None n groups 0 p a (Qcle_refl _) HF HP (proj1 HO)) as [w2 [E2 [L [_ W]]]].
  assert (w2 = w) by congruence. subst w2. exists w. split; auto.
  assert (B' : forall w' xi, length w' = d -> covers w' groups xi ->
      C * lsum (map (group_slack w) groups) + normsq w / (1 + 1) <= C * lsum xi + normsq w' / (1 + 1)).
  { intros w' xi H1 H2. eapply Qcle_trans; [apply B; eauto|]. apply Qceq_le. ring. }
  split; auto. apply Qcle_antisym.
  - apply W; auto. apply covers_group_slack.
  - eapply Qcle_trans; [exact A|]. apply Qceq_le. field. discriminate.
Qed.

(** with a negativity constraint the posed QP is only a restriction of the dual *)
Definition neg_groups : list (list (list Qc * Qc)) := [[([1; 1], 1)]].
Lemma negativity_suboptimal :
  exists (C : Qc) (n : nat) (groups : list (list (list Qc * Qc))) (idx : list nat) (p : qp) (a w w' xi : list Qc),
    0 < C /\ Forall (fun c => length (fst c) = 2%nat) (concat groups) /\
    n_slack_problem C (Some idx) n (map fst (concat groups)) (map snd (concat groups)) (map (@length _) groups) 0 = Ok p /\
    qp_optimal p a /\ weights a (map fst (concat groups)) = Ok w /\
    length w' = 2%nat /\ covers w' groups xi /\ (forall i, In i idx -> get1 w' i <= 0) /\
    C * lsum xi + normsq w' / (1 + 1) < C * lsum (map (group_slack w) groups) + normsq w / (1 + 1).
Proof.
  assert (EX : exists p, n_slack_problem 1 (Some [0%nat]) 1 (map fst (concat neg_groups)) (map snd (concat neg_groups)) (map (@length _) neg_groups) 0 = Ok p)
    by (eexists; reflexivity).
  destruct EX as [p Ep]. exists 1, 1%nat, neg_groups, [0%nat], p, [0], [0; 0], [0; 1], [0].
  assert (HF : Forall (fun c => length (fst c) = 2%nat) (concat neg_groups)) by repeat constructor.
  assert (HN : concat neg_groups <> []) by discriminate.
  assert (G0 : get1 (comb 2 [0] (map fst (concat neg_groups))) 0 = 0) by (apply Qc_is_canon; vm_compute; reflexivity).
  assert (FS : forall z, qp_feasible p z -> z = [0]).
  { intros z Hz. destruct (nslack_of_feasible 2 _ _ _ _ _ _ z HN HF Ep) as [FE _]. apply FE in Hz. destruct Hz as [L [P [_ Z]]].
    destruct z as [|z [|? ?]]; try discriminate. specialize (P O ltac:(simpl; lia)). specialize (Z _ eq_refl O (or_introl eq_refl)).
    change (0 <= z) in P. f_equal. apply Qcle_antisym; auto.
    eapply Qcle_trans; [|exact Z]. apply Qceq_le. unfold comb, tab1, get1. cbn [seq map nth neg_groups concat app fst length].
    rewrite sumn_S, sumn_O. unfold get1. cbn [nth]. ring. }
  split; [reflexivity|]. split; [exact HF|]. split; [exact Ep|].
  assert (FZ : qp_feasible p [0]).
  { destruct (nslack_of_feasible 2 _ _ _ _ _ _ [0] HN HF Ep) as [FE _]. apply FE. split; [reflexivity|]. split; [|split].
    - intros [|c] Hc; [apply Qcle_refl|simpl in Hc; lia].
    - intros [|i] Hi; [|lia]. cbn [neg_groups concat app map length fst]. rewrite sumn_S, sumn_O. unfold get1. cbn [nth].
      apply Qcle_trans with 0; [apply Qceq_le; ring|discriminate].
    - intros idx E i Hi. injection E as <-. destruct Hi as [<-|[]]. rewrite G0. apply Qcle_refl. }
  split. { split; auto. intros z Hz. rewrite (FS z Hz). apply Qcle_refl. }
  split; [vm_compute; reflexivity|].
  split; [reflexivity|]. split.
  { constructor; [|constructor]. split; [apply Qcle_refl|]. intros c [<-|[]]. discriminate. }
  split. { intros i [<-|[]]. apply Qcle_refl. } reflexivity.
Qed.

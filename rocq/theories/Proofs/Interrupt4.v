(** Interruption: resuming from a point of a batch, and concrete cases. *)
From Coq Require Import ZArith.
From Verif Require Import Model.Interrupt Model.Instances Spec.InterruptSpec Spec.FrankWolfeSpec Spec.PruneSpec Spec.TaskInstances Proofs.Arrays Proofs.LossProofs Proofs.LearnerProofs
  Proofs.UnstructuredProofs2 Proofs.QPProofs Proofs.NSlackProofs2 Proofs.NSlackProofs3 Proofs.NSlackProofs4 Proofs.PruneProofs Proofs.NSlackProofs5 Proofs.NSlackExamples Proofs.Interrupt Proofs.Interrupt2 Proofs.Interrupt3.

Section all.
Context {X Y : Type} (T : task X Y) (d : nat) (yeq : Y -> Y -> bool) (solve : qp_solver) (prm : ns_params).
Variables (Xs : list X) (Ys : list Y).
Hypothesis HC : 0 <= ns_C prm.
Hypothesis HXY : length Xs = length Ys.
Notation SS := (combine Xs Ys).
Hypothesis HS : qp_sound solve.

Lemma ns_points_ok m b st k w cs ac : oracle_ok m T d SS -> steady T d prm SS st ->
  In (k, (w, cs, ac)) (ns_points yeq solve prm m SS (length Xs) b st) ->
  length w = d /\ true_cons T SS cs /\ (ns_window prm <> O -> (k <= 1)%nat -> counted cs ac).
Proof.
  intros HO HT H. assert (feat_len := feat_len_ok T d m Xs Ys HO). assert (LS := label_self_ok T d m Xs Ys HO).
  destruct (points_ok T d yeq solve prm Xs Ys HC feat_len (fun p Hp => proj1 (LS p Hp)) HS m b st k w cs ac HO HT H) as [A [B [_ D]]]. auto.
Qed.

Hypothesis HNeg : ns_neg prm = None.
Hypothesis HT : forall n psis losses sizes reg p, n_slack_problem (ns_C prm) None n psis losses sizes reg = Ok p -> solve p <> None.
Lemma ns_point_resumes m sw b bs st k w cs ac curve primal : oracle_ok m T d SS -> (forall m', sw = Some m' -> oracle_ok m' T d SS) ->
  ns_break prm = false -> (0 < length Xs)%nat -> (0 < ns_max_iter prm)%nat -> batch_slices (ns_batch prm) (length Xs) = Ok bs ->
  steady T d prm SS st -> In (k, (w, cs, ac)) (ns_points yeq solve prm m SS (length Xs) b st) -> (k <= 1)%nat -> concat cs <> [] ->
  exists r, ns_fit yeq solve prm m sw Xs Ys (Some cs) (Some (NSAttrs ac curve primal)) = Ok r.
Proof.
  intros HO HSW HB HN HI EB HSt H Hk HE. destruct (ns_points_ok m b st k w cs ac HO HSt H) as [_ [B D]].
  eapply resume_ok; eauto.
Qed.
Lemma ns_point_lost m sw b st k w cs ac curve primal : oracle_ok m T d SS ->
  steady T d prm SS st -> In (k, (w, cs, ac)) (ns_points yeq solve prm m SS (length Xs) b st) -> (2 <= k)%nat ->
  ns_fit yeq solve prm m sw Xs Ys (Some cs) (Some (NSAttrs ac curve primal)) = Err IndexError.
Proof.
  intros HO HSt H Hk. assert (feat_len := feat_len_ok T d m Xs Ys HO). assert (LS := label_self_ok T d m Xs Ys HO).
  destruct (points_ok T d yeq solve prm Xs Ys HC feat_len (fun p Hp => proj1 (LS p Hp)) HS m b st k w cs ac HO HSt H) as [_ [B [E _]]].
  destruct E as [NZ HP]; [lia|]. eapply resume_fails; eauto.
Qed.
End all.

(** ** an n-slack fit of a classifier with four classes *)
Definition ex45_clf := MC 4 1 [1; 1; 1; 1] true false.
Definition ex45_m : smodel (list Qc) nat := mc_smodel ex45_clf.
Definition ex45_task := mc_task 4 1 (get1 [1; 1; 1; 1]).
Definition ex45_prm := NSParams 1 10 (Q2Qc (1 # 1000)) true false None (-1) (Q2Qc (1 # 1000)) 1.
(** two unused constraints in the working set; this batch finds the third *)
Definition ex45_con (y : nat) : ncon nat := (y, vsub (t_feat ex45_task [1] 0%nat) (t_feat ex45_task [1] y), 1).
Definition ex45_st : ns_state nat := NSState [1; 0; 0; 1] [[ex45_con 1; ex45_con 2]] [[1; 1]]%nat (Some 0).
Lemma ex45_oracle : oracle_exact ex45_m ex45_task 4 (combine ex9_X ex9_Y).
Proof.
  intros p [<-|[]]. split.
  - apply (mc_implements ex45_clf); auto; repeat constructor.
  - intros w Hw. apply (mc_exact_laug ex45_clf); auto; repeat constructor.
Qed.
Lemma ex45_steady : steady ex45_task 4 ex45_prm (combine ex9_X ex9_Y) ex45_st.
Proof.
  split; [reflexivity|]. split.
  - constructor; [|constructor]. constructor; [|constructor; [|constructor]]; (split; [cbn; lia|split; reflexivity]).
  - intros _. repeat constructor.
Qed.
Definition ex45_points := ns_points Nat.eqb zero_solver ex45_prm ex45_m (combine ex9_X ex9_Y) (length ex9_X) (0, 1)%nat ex45_st.
Lemma ex45_lost : exists w cs ac, In (2%nat, (w, cs, ac)) ex45_points /\
  ns_fit Nat.eqb zero_solver ex45_prm ex45_m None ex9_X ex9_Y (Some cs) (Some (NSAttrs ac [] [])) = Err IndexError.
Proof.
  assert (E : fst (nth 4 ex45_points (0%nat, ([], [], []))) = 2%nat) by (vm_compute; reflexivity).
  assert (I : In (nth 4 ex45_points (0%nat, ([], [], []))) ex45_points).
  { apply nth_In. assert (Z : (4 <? length ex45_points)%nat = true) by (vm_compute; reflexivity). apply Nat.ltb_lt. exact Z. }
  destruct (nth 4 ex45_points (0%nat, ([], [], []))) as [k [[w cs] ac]]. cbn [fst] in E. subst k. exists w, cs, ac. split; [exact I|].
  eapply (ns_point_lost ex45_task 4 Nat.eqb zero_solver ex45_prm ex9_X ex9_Y); [discriminate|reflexivity|exact zero_solver_sound|reflexivity| | |exact ex45_steady|unfold ex45_points in I; exact I|lia].
  - intros n psis losses sizes reg p. apply zero_solver_total. discriminate.
  - apply NSlackProofs3.exact_is_ok. exact ex45_oracle.
Qed.

(** ** a Frank-Wolfe fit of one sample, two classes; the minimum is 1/4, at (1/2, -1/2) *)
Definition ex45_fw := FWParams 1 10 0 false false 1 false.
Definition ex45_start := fw_bc_start 2 1 (vzero 2) 0.
Definition ex45_tr : list fw_state :=
  match fw_step ex45_fw ex9_m ex9_X ex9_Y 0 ex45_start with
  | Ok s1 => match fw_step ex45_fw ex9_m ex9_X ex9_Y 0 s1 with Ok s2 => [s1; s2] | Err _ => [] end
  | Err _ => []
  end.
Lemma ex45_trace : fw_trace ex45_fw ex9_m ex9_X ex9_Y ex45_start ex45_tr /\ ex45_tr <> [].
Proof.
  assert (L : length ex45_tr = 2%nat) by (vm_compute; reflexivity). split; [|intro Z; rewrite Z in L; discriminate].
  unfold ex45_tr in *. destruct (fw_step ex45_fw ex9_m ex9_X ex9_Y 0 ex45_start) as [s1|] eqn:E1; [|discriminate L].
  destruct (fw_step ex45_fw ex9_m ex9_X ex9_Y 0 s1) as [s2|] eqn:E2; [|discriminate L].
  cbn [fw_trace]. split; [eauto|]. split; [eauto|exact I].
Qed.
Definition ex45_fw_points := fw_points ex45_fw ex9_m ex9_X ex9_Y 0 (last ex45_tr ex45_start).
Lemma ex45_hinge : hinges ex9_task [1 / (1 + 1); - (1 / (1 + 1))] (combine ex9_X ex9_Y) [0].
Proof.
  constructor; [|constructor]. split.
  - exists 0%nat. split; [cbn; lia|]. apply Qc_is_canon. vm_compute. reflexivity.
  - intros y' Hy. cbn in Hy. destruct y' as [|[|y']]; [| |exfalso; lia]; vm_compute; discriminate.
Qed.
Lemma fw_bound_refuted : exists tr w l w' hs,
  fw_trace ex45_fw ex9_m ex9_X ex9_Y (fw_bc_start 2 1 (vzero 2) 0) tr /\
  In (FRemoved, (w, l)) (fw_points ex45_fw ex9_m ex9_X ex9_Y 0 (last tr (fw_bc_start 2 1 (vzero 2) 0))) /\
  length w' = 2%nat /\ hinges ex9_task w' (combine ex9_X ex9_Y) hs /\
  primal_value (fw_C ex45_fw) w' hs < dual_objective (fw_C ex45_fw) 1 w l /\
  w <> fs_self_w (last tr (fw_bc_start 2 1 (vzero 2) 0)) /\ Forall (fun v => v = 0) w.
Proof.
  exists ex45_tr. fold ex45_start. fold ex45_fw_points.
  assert (C : match ex45_fw_points with
              | [_; (FRemoved, ([w0; w1], l)); _; _; _] => Qceqb w0 0 && Qceqb w1 0 &&
                  Qcltb (primal_value (fw_C ex45_fw) [1 / (1 + 1); - (1 / (1 + 1))] [0]) (dual_objective (fw_C ex45_fw) 1 [w0; w1] l) &&
                  negb (Qceqb w0 (get1 (fs_self_w (last ex45_tr ex45_start)) 0))
              | _ => false end = true) by (vm_compute; reflexivity).
  destruct ex45_fw_points as [|p0 [|[[] [[|w0 [|w1 [|? ?]]] l]] [|? [|? [|? [|? ?]]]]]]; try discriminate C.
  apply andb_true_iff in C. destruct C as [C C4]. apply andb_true_iff in C. destruct C as [C C3]. apply andb_true_iff in C. destruct C as [C1 C2].
  exists [w0; w1], l, [1 / (1 + 1); - (1 / (1 + 1))], [0]. split; [apply ex45_trace|]. split; [right; left; reflexivity|].
  split; [reflexivity|]. split; [exact ex45_hinge|]. destruct (Qcltb_spec (primal_value (fw_C ex45_fw) [1 / (1 + 1); - (1 / (1 + 1))] [0]) (dual_objective (fw_C ex45_fw) 1 [w0; w1] l)) as [K|]; [|discriminate C3].
  split; [exact K|]. destruct (Qceqb_spec w0 0) as [Z0|]; [|discriminate C1]. destruct (Qceqb_spec w1 0) as [Z1|]; [|discriminate C2]. split.
  - intro E. rewrite <- E in C4. unfold get1 in C4. cbn [nth] in C4. destruct (Qceqb_spec w0 w0); [discriminate C4|congruence].
  - repeat constructor; auto.
Qed.

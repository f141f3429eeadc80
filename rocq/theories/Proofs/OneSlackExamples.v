From Coq Require Import ZArith.
From Verif Require Import Model.OneSlack Model.BatchInstances Spec.TaskInstances Proofs.Arrays Proofs.LossProofs Proofs.LearnerProofs
  Proofs.UnstructuredProofs Proofs.UnstructuredProofs2 Proofs.QPProofs Proofs.NSlackExamples Proofs.OneSlackQP Proofs.OneSlackPrune Proofs.OneSlackCache Proofs.OneSlackProofs Proofs.OneSlackProofs2 Spec.OneSlackSpec.

(** ** MultiClassClf with its batch methods *)
Lemma rows_ok F Xs : Forall (fun x => length x = F) Xs -> mat_ok (rows_mat F Xs).
Proof. intro H. split; [reflexivity|]. exact H. Qed.
Lemma class_labels k F c (Xs : list (list Qc)) Ys : labelling (mc_task k F c) Xs Ys -> length Ys = length Xs /\ Forall (fun y => (y < k)%nat) Ys.
Proof. intro H. split; [symmetry; eapply Forall2_len; eauto|]. induction H; constructor; auto. Qed.

Lemma mc_batch_exact m Xs Ys : mc_rescale m = false -> (0 < mc_states m)%nat -> length (mc_cw m) = mc_states m ->
  (mc_uniform m = true -> forall s, (s < mc_states m)%nat -> get1 (mc_cw m) s = 1) ->
  Forall (fun x => length x = mc_features m) Xs -> length Xs = length Ys -> Forall (fun y => (y < mc_states m)%nat) Ys ->
  batch_exact (mc_bmodel m) (mc_task (mc_states m) (mc_features m) (get1 (mc_cw m))) (mc_size m) Xs Ys.
Proof.
  intros Hr Hk Hc Hu HX HL HY. set (T := mc_task _ _ _).
  assert (HO : oracle_exact (mc_smodel m) T (mc_size m) (combine Xs Ys)).
  { intros [x y] Hp. cbn [fst snd]. rewrite Forall_forall in HX, HY.
    assert (length x = mc_features m) by (apply HX; eapply in_combine_l; eauto).
    assert (y < mc_states m)%nat by (apply HY; eapply in_combine_r; eauto).
    split; [apply mc_implements; auto|]. intros w Hw. apply mc_exact_laug; auto. }
  assert (BE := base_batch_exact T (mc_size m) Xs Ys (mc_smodel m) HL eq_refl HO).
  assert (AG : forall w, length w = mc_size m -> bm_laug (mc_bmodel m) Xs Ys w = bm_laug (base_bmodel (mc_smodel m)) Xs Ys w).
  { intros w Hw. cbn [mc_bmodel bm_laug base_bmodel]. rewrite mc_batch_laug_agrees; auto. apply rows_ok; auto. }
  destruct BE as [[B1 [B2 [B3 [B4 B5]]]] [B6 B7]]. split; [|split; [exact B6|]].
  - split; [exact B1|]. split; [exact B2|]. split; [exact B3|]. split.
    + intros Yh HYh. destruct (class_labels _ _ _ _ _ HYh) as [LY LK]. destruct (B4 Yh HYh) as [C1 C2]. split.
      * cbn [mc_bmodel bm_joint bm_s mc_smodel sm_rescale]. rewrite Hr.
        destruct (mc_batch_joint_plain m (rows_mat (mc_features m) Xs) Yh Hr (rows_ok _ _ HX) eq_refl LY LK) as [fs [E1 E2]].
        rewrite E2. f_equal. unfold feat_sum, vsum. f_equal.
        assert (FE : mapM (fun p => mc_joint_feature m (fst p) (snd p) None) (combine Xs Yh) = Ok (map (fun p => t_feat T (fst p) (snd p)) (combine Xs Yh))).
        { apply mapM_ok. intros [x y] Hp. rewrite Forall_forall in HX, LK.
          assert (HI : implements (mc_smodel m) T (mc_size m) x y). { apply mc_implements; auto. apply HX; eapply in_combine_l; eauto. apply LK; eapply in_combine_r; eauto. }
          destruct HI as [I1 [_ I3]]. destruct (I3 y I1) as [_ [J _]]. cbn [mc_smodel sm_rescale sm_joint] in J. rewrite Hr in J. exact J. }
        cbn [rows_mat mdat] in E1. congruence.
      * cbn [mc_bmodel bm_loss]. rewrite mc_batch_loss_agrees by congruence. cbn [base_bmodel bm_loss] in C2. rewrite <- C2. reflexivity.
    + intros w Hw. rewrite AG by auto. apply B5. auto.
  - intros w Hw. rewrite AG by auto. apply B7. auto.
Qed.

(** ** a run *)
Definition ex10_bm : bmodel (list Qc) nat := mc_bmodel ex9_clf.
Definition ex10_prm (iter cache : nat) := OSParams 1 iter (Q2Qc (1 # 1000)) true false None cache (Q2Qc (1 # 100)) 5 TolAuto.
(** minimises a1^2 - a1 over a0 + a1 = 1, a >= 0 *)
Definition ex10_solver : qp_solver := fun p =>
  match p with
  | QP (Mat 2 2 [[p00; p01]; [p10; p11]]) [q0; q1] (Mat 2 2 [[g00; g01]; [g10; g11]]) [h0; h1] (Mat 1 2 [[a0; a1]]) [b] =>
      if Qceqb p00 0 && Qceqb p01 0 && Qceqb p10 0 && Qceqb p11 (1 + 1) && Qceqb q0 0 && Qceqb q1 (- (1)) &&
         Qceqb g00 (- (1)) && Qceqb g01 0 && Qceqb g10 0 && Qceqb g11 (- (1)) && Qceqb h0 0 && Qceqb h1 0 &&
         Qceqb a0 1 && Qceqb a1 1 && Qceqb b 1
      then Some ([1 / (1 + 1); 1 / (1 + 1)], - (1 / (1 + 1 + 1 + 1))) else None
  | _ => None
  end.
Lemma ex10_exact : qp_exact ex10_solver.
Proof.
  intros p x v H. unfold ex10_solver in H.
  repeat match type of H with
         | (match andb _ _ with _ => _ end) = _ => fail 1
         | (match ?b with _ => _ end) = _ => destruct b; try discriminate H
         end.
  repeat match type of H with context [Qceqb ?u ?w] => destruct (Qceqb_spec u w) as [->|]; [|rewrite ?andb_false_r in H; discriminate H] end.
  cbn [andb] in H. injection H as <- <-. split; [split|].
  - split; [reflexivity|]. split; cbn [mrows mdat qp_G qp_A qp_h qp_b]; intros r Hr.
    + destruct r as [|[|r]]; [discriminate|discriminate|lia].
    + destruct r as [|r]; [|lia]. apply Qc_is_canon. vm_compute. reflexivity.
  - intros z [Lz _]. cbn in Lz. destruct z as [|s [|t [|? ?]]]; try discriminate.
    unfold qp_value. cbn [qp_P qp_q mdat map]. rewrite !dot_cons. unfold dot; cbn [zipw lsum].
    assert (S := Qc_sq_nonneg (t - 1 / (1 + 1))).
    match goal with |- ?a <= ?b => replace b with (a + (t - 1 / (1 + 1)) * (t - 1 / (1 + 1))) by (field; discriminate) end.
    set (u := (t - 1 / (1 + 1)) * (t - 1 / (1 + 1))) in *. clearbody u.
    match goal with |- ?a <= ?a + u => set (k := a); clearbody k end. qclra.
  - apply Qc_is_canon. vm_compute. reflexivity.
Qed.
Lemma ex10_ok iter cache : qp_exact ex10_solver /\ qp_sound ex10_solver /\ 0 <= o_C (ex10_prm iter cache) /\ 0 <= o_tol (ex10_prm iter cache) /\
  batch_exact ex10_bm ex9_task 2 ex9_X ex9_Y /\ usable ex9_task 2 (ex10_prm iter cache) ex9_X ex9_Y ex10_bm.
Proof.
  assert (BE : batch_exact ex10_bm ex9_task 2 ex9_X ex9_Y).
  { apply (mc_batch_exact ex9_clf); auto; repeat constructor. intros _ s Hs. destruct s as [|[|s]]; [reflexivity|reflexivity|cbn in Hs; lia]. }
  split; [exact ex10_exact|]. split; [intros p x v H; apply ex10_exact in H; destruct H as [[A _] B]; auto|].
  split; [discriminate|]. split; [discriminate|]. split; auto. split; [apply BE|auto].
Qed.

(** a solver that answers every one-slack problem without negativity constraint: all mass on
    the first constraint *)
Definition first_solver : qp_solver := fun p =>
  match length (qp_q p), qp_b p with
  | S n, [b] =>
      let a := b :: vzero n in
      if forallb (fun r => Qcleb (dot (nth r (mdat (qp_G p)) []) a) (get1 (qp_h p) r)) (seq 0 (mrows (qp_G p))) &&
         forallb (fun r => Qceqb (dot (nth r (mdat (qp_A p)) []) a) (get1 (qp_b p) r)) (seq 0 (mrows (qp_A p)))
      then Some (a, qp_value p a) else None
  | _, _ => None
  end.
Lemma first_solver_sound : qp_sound first_solver.
Proof.
  intros p x v H. unfold first_solver in H. destruct (length (qp_q p)) as [|n] eqn:EL; [discriminate|].
  destruct (qp_b p) as [|b [|b2 l]] eqn:EB; try discriminate.
  match type of H with match ?b1 && ?b2 with _ => _ end = _ => destruct b1 eqn:E1; [|discriminate]; destruct b2 eqn:E2; [|discriminate] end.
  cbn [andb] in H. injection H as <- <-. split; [|reflexivity]. rewrite forallb_forall in E1, E2.
  split; [cbn [length]; rewrite vzero_length; auto|]. split; intros r Hr.
  - specialize (E1 r). destruct (Qcleb_spec (dot (nth r (mdat (qp_G p)) []) (b :: vzero n)) (get1 (qp_h p) r)) as [A|A]; auto.
    specialize (E1 ltac:(apply in_seq; lia)). discriminate.
  - specialize (E2 r). destruct (Qceqb_spec (dot (nth r (mdat (qp_A p)) []) (b :: vzero n)) (get1 [b] r)) as [A|A]; [rewrite EB; auto|].
    specialize (E2 ltac:(apply in_seq; lia)). discriminate.
Qed.

Lemma vstack_lengths (cs : list ocon) M : vstack (map fst cs) = Ok M -> exists d, Forall (fun c => length (fst c) = d) cs.
Proof.
  unfold vstack. destruct cs as [|c cs]; [discriminate|]. cbn [map]. intro H.
  destruct (forallb _ _) eqn:E in H; [|discriminate]. exists (length (fst c)). apply Forall_forall. intros c' Hc'.
  rewrite forallb_forall in E. apply Nat.eqb_eq. apply E. change (In (fst c') (map fst (c :: cs))). apply in_map. auto.
Qed.
Lemma first_solver_total C n (cs : list ocon) reg p : 0 <= C -> one_slack_problem C None n (map fst cs) (map snd cs) reg = Ok p -> first_solver p <> None.
Proof.
  intros HC H. assert (H0 := H). unfold one_slack_problem in H. apply bind_ok in H. destruct H as [M [EM H]]. destruct (vstack_lengths _ _ EM) as [d HF].
  cbn [neg_rows bind] in H. injection H as H.
  assert (NE : cs <> []) by (intro; subst cs; discriminate).
  destruct cs as [|c cs]; [congruence|].
  assert (EQ : length (qp_q p) = S (length cs)). { subst p. cbn [qp_q]. rewrite vscale_length, map_length. reflexivity. }
  assert (EB : qp_b p = [C * ofN n]) by (subst p; reflexivity).
  assert (FE : qp_feasible p (C * ofN n :: vzero (length cs))).
  { apply (oslack_feasible d C None n (c :: cs) reg p _ HF H0). split; [cbn [length]; rewrite vzero_length; reflexivity|].
    split; [|split; [|discriminate]].
    - intros [|k] _. apply Cn_nonneg; auto. cbn [get1 nth]. change (nth k (vzero (length cs)) 0) with (get1 (vzero (length cs)) k). rewrite get1_vzero. apply Qcle_refl.
    - cbn [lsum]. replace (lsum (vzero (length cs))) with 0. ring. symmetry. generalize (length cs). clear. induction n; cbn; auto. fold (vzero n). rewrite IHn. ring. }
  destruct FE as [_ [F1 F2]]. unfold first_solver. rewrite EQ, EB.
  match goal with |- (if ?b1 && ?b2 then _ else _) <> _ => assert (E1 : b1 = true); [|assert (E2 : b2 = true)] end.
  - apply forallb_forall. intros r Hr. apply in_seq in Hr. destruct (Qcleb_spec (dot (nth r (mdat (qp_G p)) []) (C * ofN n :: vzero (length cs))) (get1 (qp_h p) r)) as [A|A]; auto.
    exfalso. revert A. apply Qcle_not_lt. apply F1. lia.
  - apply forallb_forall. intros r Hr. apply in_seq in Hr. rewrite <- EB. rewrite F2 by lia. destruct (Qceqb_spec (get1 (qp_b p) r) (get1 (qp_b p) r)); auto.
  - rewrite E1, E2. discriminate.
Qed.

(** ** without the initial constraint the stopping rule does not bound the distance to the optimum *)
Definition ex10_c1 : list Qc * Qc := ([1], 1).
Definition ex10_c2 : list Qc * Qc := ([ofN 10], ofN 11).
Definition ex10_cs : list (list Qc * Qc) := [ex10_c1; ex10_c2].
Lemma ex10_comb s t : comb 1 [s; t] (map fst ex10_cs) = [s + t * ofN 10].
Proof.
  apply vec_ext; [reflexivity|]. intros [|i] Hi; [|cbn in Hi; lia]. unfold comb. rewrite get1_tab1 by lia.
  cbn [map fst ex10_cs ex10_c1 ex10_c2 length]. rewrite !sumn_S, sumn_O. cbn [get1 nth]. ring.
Qed.
Lemma ex10_dual t : dual1_value 1 ex10_cs [1 - t; t] =
  1 + ofN 10 * t - (1 + ofN 9 * t) * (1 + ofN 9 * t) / (1 + 1).
Proof.
  unfold dual1_value. rewrite ex10_comb. unfold normsq. cbn [map snd ex10_cs ex10_c1 ex10_c2]. rewrite !dot_cons. unfold dot. cbn [zipw lsum].
  rewrite (ofN_S 10), (ofN_S 9). set (k := ofN 9). clearbody k. field. discriminate.
Qed.
Lemma pruned_initial_suboptimal : exists (C : Qc) (n : nat) (cs : list (list Qc * Qc)) (p : qp) (a w : list Qc) (v : Qc) (w' : list Qc),
  0 < C /\ one_slack_problem C None n (map fst cs) (map snd cs) 0 = Ok p /\ qp_optimal p a /\ weights a (map fst cs) = Ok w /\
  worst w cs v /\ length w' = 1%nat /\ (forall c, In c cs -> violation w' c <= 0) /\
  C * ofN n * 0 + normsq w' / (1 + 1) < C * ofN n * Qcmax v 0 + normsq w / (1 + 1).
Proof.
  exists 1, 1%nat, ex10_cs.
  assert (HF : Forall (fun c : list Qc * Qc => length (fst c) = 1%nat) ex10_cs) by (repeat constructor).
  destruct (one_slack_problem 1 None 1 (map fst ex10_cs) (map snd ex10_cs) 0) as [p|] eqn:EP; [|discriminate].
  set (t := 1 / ofN 81). set (w := [ofN 10 / ofN 9]).
  assert (EW : weights [1 - t; t] (map fst ex10_cs) = Ok w).
  { rewrite (weights_comb 1) by (auto; try discriminate; apply ocons_len; auto). rewrite ex10_comb. unfold w, t. apply f_equal. apply f_equal2; auto.
    apply Qc_is_canon. vm_compute. reflexivity. }
  exists p, [1 - t; t], w, (- (1 / ofN 9)), [ofN 11 / ofN 10].
  split; [reflexivity|]. split; [reflexivity|]. split; [|split; [exact EW|split; [|split; [reflexivity|split]]]].
  - split.
    + apply (oslack_feasible 1 1 None 1 ex10_cs 0 p _ HF EP). split; [reflexivity|]. split; [|split; [|discriminate]].
      * intros [|[|k]] Hk; [discriminate|discriminate|cbn in Hk; lia].
      * apply Qc_is_canon. vm_compute. reflexivity.
    + intros z Hz. destruct (oslack_feasible 1 1 None 1 ex10_cs 0 p z HF EP) as [[FZ _] VZ]. apply FZ in Hz. destruct Hz as [Lz [Nz [Sz _]]].
      destruct (oslack_feasible 1 1 None 1 ex10_cs 0 p [1 - t; t] HF EP) as [_ VA]. rewrite VZ, VA by auto.
      destruct z as [|z0 [|z1 [|? ?]]]; [discriminate Lz|discriminate Lz| |discriminate Lz]. cbn [lsum] in Sz.
      assert (Z0 : z0 = 1 - z1). { replace z0 with (z0 + (z1 + 0) - z1) by ring. rewrite Sz. rewrite ofN_S, ofN_0. ring. }
      subst z0. rewrite !ex10_dual.
      assert (S := Qc_sq_nonneg (ofN 9 * z1 - ofN 9 * t)).
      assert (E2 : ofN 9 * t = 1 / ofN 9) by (apply Qc_is_canon; vm_compute; reflexivity).
      set (b := 1 / ofN 9) in *.
      assert (E3 : ofN 10 = ofN 9 + ofN 9 * b) by (apply Qc_is_canon; vm_compute; reflexivity).
      rewrite E2 in S |- *. rewrite E3.
      replace ((ofN 9 + ofN 9 * b) * t) with (ofN 9 * t + (ofN 9 * t) * b) by ring.
      replace ((ofN 9 + ofN 9 * b) * z1) with (ofN 9 * z1 + (ofN 9 * z1) * b) by ring. rewrite E2.
      set (u := ofN 9 * z1) in *. clearbody u b. clear - S.
      replace (0 * normsq [1 - t; t] / (1 + 1)) with 0 by (unfold Qcdiv; ring).
      replace (0 * normsq [1 - z1; z1] / (1 + 1)) with 0 by (unfold Qcdiv; ring).
      replace (0 - (1 + (u + u * b) - (1 + u) * (1 + u) / (1 + 1))) with (0 - (1 + (b + b * b) - (1 + b) * (1 + b) / (1 + 1)) + (u - b) * (u - b) / (1 + 1)) by (field; discriminate).
      apply Qchalf_nonneg in S. set (q := (u - b) * (u - b) / (1 + 1)) in *. set (r := 0 - _). clearbody q r. qclra.
  - split.
    + exists ex10_c1. split; [simpl; auto|]. apply Qc_is_canon. vm_compute. reflexivity.
    + intros c [<-|[<-|[]]]; vm_compute; discriminate.
  - intros c [<-|[<-|[]]]; vm_compute; discriminate.
  - reflexivity.
Qed.

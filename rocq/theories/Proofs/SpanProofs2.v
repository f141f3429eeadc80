(** OneSlackSSVM only visits weights in the span of the joint features. *)
From Verif Require Import Spec.SpanSpec Proofs.Arrays Proofs.LossProofs Proofs.LearnerProofs Proofs.QPProofs Proofs.NSlackProofs3
  Proofs.OneSlackQP Proofs.OneSlackProofs Proofs.OneSlackProofs2 Proofs.OneSlackPrune Proofs.OneSlackCache Proofs.SpanProofs.

Lemma update_project {X Y} pi ceq prm (m : smodel X Y) cache Xs Ys (Yh : list Y) : update_cache ceq prm (project pi m) cache Xs Ys Yh = update_cache ceq prm m cache Xs Ys Yh.
Proof.
  unfold update_cache. destruct (o_cache prm =? 0)%nat; [reflexivity|].
  assert (E : forall c (Xs : list X) Ys Yh, update_samples ceq prm (project pi m) c Xs Ys Yh = update_samples ceq prm m c Xs Ys Yh).
  { induction c as [|s c IH]; intros [|x xs] [|y ys] [|h hs]; try reflexivity. cbn [update_samples]. rewrite IH. reflexivity. }
  cbv zeta. rewrite E. reflexivity.
Qed.
Section O.
Context {X Y : Type} (T : task X Y) (d : nat) (V : list Qc -> Prop) (pi : list Qc -> list Qc) (ceq : Y -> Y -> res bool) (solve : qp_solver) (prm : os_params).
Variables (m : smodel X Y) (Xs : list X) (Ys : list Y).
Hypothesis HV : subspace d V.
Hypothesis HP : projection d V pi.
Hypothesis HF : features_in T V (combine Xs Ys).
Hypothesis HXY : length Xs = length Ys.
Hypothesis HN : (0 < length Xs)%nat.
Hypothesis Hd : sm_size m = d.
Hypothesis HO : oracle_ok_on V m T d (combine Xs Ys).
Hypothesis HR : o_cache prm = O \/ sm_rescale m = false.
Let BO : batch_ok (base_bmodel (project pi m)) T d Xs Ys.
Proof. apply base_batch_ok; [exact HXY|exact Hd|]. exact (project_ok T d V pi _ HP m HO). Qed.
Let G : good T d Xs Ys.
Proof. exact (batch_good _ _ _ _ _ BO). Qed.
Lemma feat_sum_in Yh : OneSlackSpec.labelling T Xs Yh -> V (feat_sum T d Xs Yh).
Proof.
  intros H. assert (F : forall x y', In x Xs -> t_label T x y' -> V (t_feat T x y')).
  { intros x y' Hx Hy. destruct (In_nth _ _ x Hx) as [i [Hi E]].
    assert (I : In (x, nth i Ys y') (combine Xs Ys)) by (rewrite <- E, <- combine_nth by exact HXY; apply nth_In; rewrite combine_length; lia).
    exact (HF _ _ I Hy). }
  clear - HV H F. unfold feat_sum. revert F. induction H as [|x y xs ys Hy H IH]; intros F; cbn [combine map fold_right fst snd]; [apply HV|].
  apply HV; [apply F; [left; reflexivity|exact Hy]|]. apply IH. intros x' y' Hx. apply F. right. exact Hx.
Qed.
Lemma mean_con_in Yh c : mean_con T d Xs Ys Yh c -> V (fst c).
Proof.
  intros [H1 [-> _]]. apply HV. apply (sub_sub d); [exact HV| |]; apply feat_sum_in; [|exact H1]. exact (good_label _ _ _ _ G).
Qed.
Definition oin (st : os_state Y) : Prop := V (o_w st) /\ valid_cons T d Xs Ys (o_cons st) /\ cache_valid T Xs Ys (o_icache st).
Lemma step_in cached c st st' Yh : oin st -> mean_con T d Xs Ys Yh c -> os_step solve prm (length Xs) cached c st = Ok st' -> oin st'.
Proof.
  intros [I1 [I2 I3]] HM E. unfold os_step in E. apply bind_ok in E. destruct E as [dt [_ E]]. apply bind_ok in E. destruct E as [[[[w obj] cs] al] [ES E]].
  apply bind_ok in E. destruct E as [vs [_ E]]. apply bind_ok in E. destruct E as [s [_ E]].
  destruct (solve1_inv Xs solve prm _ _ w obj cs al ES) as [a [reg [p [_ [EP [_ [EC EW]]]]]]].
  assert (VC : valid_cons T d Xs Ys (o_cons st ++ [c])) by (apply Forall_app; split; [exact I2|constructor; [exists Yh; exact HM|constructor]]).
  assert (F : Forall V (map fst (o_cons st ++ [c]))).
  { apply Forall_map. eapply Forall_impl; [|exact VC]. intros c' [Y' H']. exact (mean_con_in _ _ H'). }
  assert (FL : Forall (fun v => length v = d) (map fst (o_cons st ++ [c]))) by (eapply Forall_impl; [|exact F]; apply sub_len, HV).
  assert (NE : map fst (o_cons st ++ [c]) <> []) by (destruct (o_cons st); discriminate).
  assert (L : length a = length (map fst (o_cons st ++ [c]))).
  { unfold weights in EW. apply bind_ok in EW. destruct EW as [Psi [E1 E2]]. rewrite (vstack_ok d) in E1 by assumption. injection E1 as <-. cbn [mrows] in E2.
    destruct (Nat.eqb_spec (length a) (length (map fst (o_cons st ++ [c])))); [assumption|discriminate]. }
  rewrite (weights_comb d) in EW by assumption. injection EW as <-. injection E as <-. split; [|split]; cbn [o_w o_cons o_icache].
  - apply (sub_comb d V HV). exact F.
  - destruct (os_prune_incl _ _ _ _ _ _ EC) as [IN _]. apply Forall_forall. intros x Hx. exact (proj1 (Forall_forall _ _) VC x (IN x Hx)).
  - exact I3.
Qed.
Lemma find_agree w sl cs gt : V w -> find_new prm (base_bmodel (project pi m)) Xs Ys gt w sl cs = find_new prm (base_bmodel m) Xs Ys gt w sl cs.
Proof. intros Hw. unfold find_new. cbn [base_bmodel bm_laug bm_joint bm_loss bm_s project sm_laug]. rewrite (proj_fix d V HV pi w HP Hw). reflexivity. Qed.
Lemma loop_agree1 k : forall st, oin st ->
  os_loop ceq solve prm Xs Ys (feat_sum T d Xs Ys) k (base_bmodel (project pi m)) None st =
    (let! r := os_loop ceq solve prm Xs Ys (feat_sum T d Xs Ys) k (base_bmodel m) None st in
     let '(st', reason, _) := r in Ok (st', reason, base_bmodel (project pi m))) /\
  forall st' reason bm, os_loop ceq solve prm Xs Ys (feat_sum T d Xs Ys) k (base_bmodel m) None st = Ok (st', reason, bm) -> oin st' /\ bm = base_bmodel m.
Proof.
  induction k as [|k IH]; intros st HI; cbn [os_loop].
  - split; [reflexivity|]. intros st' reason bm H. assert (st = st' /\ base_bmodel m = bm) as [<- <-] by (split; congruence). auto.
  - change (from_cache prm (bm_s (base_bmodel (project pi m))) (length Xs) (feat_sum T d Xs Ys) st) with (from_cache prm (bm_s (base_bmodel m)) (length Xs) (feat_sum T d Xs Ys) st).
    destruct (from_cache prm (bm_s (base_bmodel m)) (length Xs) (feat_sum T d Xs Ys) st) as [[c|]|e] eqn:EC; cbn [bind]; [| |split; [reflexivity|discriminate]].
    + destruct (from_cache_con T d Xs Ys G HN prm m st c Hd (proj2 (proj2 HI)) EC) as [Yh HM].
      destruct (os_step solve prm (length Xs) true c st) as [st1|e] eqn:ES; cbn [bind]; [|split; [reflexivity|discriminate]].
      exact (IH st1 (step_in true c st st1 Yh HI HM ES)).
    + rewrite <- (find_agree (o_w st) (o_slack st) (o_cons st) (feat_sum T d Xs Ys) (proj1 HI)).
      destruct (find_new prm (base_bmodel (project pi m)) Xs Ys (feat_sum T d Xs Ys) (o_w st) (o_slack st) (o_cons st)) as [r|e] eqn:EF; cbn [bind]; [|split; [reflexivity|discriminate]].
      destruct (find_new_form T d Xs Ys G HN prm (base_bmodel (project pi m)) (o_w st) (o_slack st) (o_cons st) r BO (sub_len d V HV _ (proj1 HI)) EF) as [Yh [c [bad [E1 [E2 [E3 ->]]]]]].
      destruct bad.
      * split; [reflexivity|]. intros st' reason bm H. assert (st = st' /\ base_bmodel m = bm) as [<- <-] by (split; congruence). auto.
      * assert (UP : update_cache ceq prm (bm_s (base_bmodel m)) (o_icache st) Xs Ys Yh = update_cache ceq prm (bm_s (base_bmodel (project pi m))) (o_icache st) Xs Ys Yh) by (symmetry; apply update_project).
        rewrite UP.
        destruct (update_cache ceq prm (bm_s (base_bmodel (project pi m))) (o_icache st) Xs Ys Yh) as [cache|e] eqn:EU; cbn [bind]; [|split; [reflexivity|discriminate]].
        assert (CV := update_cache_valid T d Xs Ys ceq prm (base_bmodel (project pi m)) (o_icache st) Yh cache BO HR (proj1 E2) EU (proj2 (proj2 HI))).
        match goal with |- context [os_step solve prm (length Xs) false c ?s] => set (st1 := s) end.
        assert (I1 : oin st1) by (split; [exact (proj1 HI)|split; [exact (proj1 (proj2 HI))|exact CV]]).
        destruct (os_step solve prm (length Xs) false c st1) as [st2|e] eqn:ES; cbn [bind]; [|split; [reflexivity|discriminate]].
        exact (IH st2 (step_in false c st1 st2 Yh I1 E2 ES)).
Qed.
Lemma one_agree : os_fit ceq solve prm (base_bmodel (project pi m)) None Xs Ys Cold = os_fit ceq solve prm (base_bmodel m) None Xs Ys Cold /\
  forall st reason, os_fit ceq solve prm (base_bmodel m) None Xs Ys Cold = Ok (st, reason) -> V (o_w st).
Proof.
  assert (EG := gt_value T d Xs Ys (base_bmodel (project pi m)) BO).
  change (bm_joint (base_bmodel m) Xs Ys (if sm_rescale (bm_s (base_bmodel m)) then Some Ys else None) = Ok (feat_sum T d Xs Ys)) in EG.
  unfold os_fit. change (bm_joint (base_bmodel (project pi m))) with (bm_joint (base_bmodel m)). change (sm_rescale (bm_s (base_bmodel (project pi m)))) with (sm_rescale (bm_s (base_bmodel m))).
  change (sm_size (bm_s (base_bmodel (project pi m)))) with (sm_size m). change (sm_size (bm_s (base_bmodel m))) with (sm_size m).
  cbn [os_start bind]. rewrite EG. cbn [bind].
  match goal with |- context [os_loop ceq solve prm Xs Ys _ _ _ None ?s] => set (st0 := s) end.
  assert (I0 : oin st0).
  { split; [|split]; cbn [st0 o_w o_cons o_icache]; rewrite ?Hd; [apply HV| |exact Logic.I]. constructor; [exists Ys; exact (gt_con T d Xs Ys G)|constructor]. }
  destruct (loop_agree1 (o_max_iter prm) st0 I0) as [A B]. rewrite A.
  destruct (os_loop ceq solve prm Xs Ys (feat_sum T d Xs Ys) (o_max_iter prm) (base_bmodel m) None st0) as [[[st reason] bm]|e]; cbn [bind]; [|split; [reflexivity|discriminate]].
  destruct (B _ _ _ eq_refl) as [I1 ->]. cbn [base_bmodel bm_s]. rewrite (project_primal d V pi HV HP m (o_w st)) by exact (proj1 I1). split; [reflexivity|].
  intros st' reason' H. apply bind_ok in H. destruct H as [q [_ H]]. apply bind_ok in H. destruct H as [o [_ H]]. injection H as <- _. exact (proj1 I1).
Qed.
End O.

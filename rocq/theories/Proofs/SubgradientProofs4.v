From Coq Require Import ZArith Permutation.
From Verif Require Import Model.Subgradient Model.BatchInstances Spec.TaskInstances Proofs.Arrays Proofs.LossProofs Proofs.CRFProofs Proofs.LearnerProofs Proofs.QPProofs
  Proofs.NSlackProofs5 Proofs.NSlackExamples Proofs.OneSlackProofs Proofs.OneSlackProofs2 Proofs.OneSlackExamples Proofs.SubgradientProofs Proofs.SubgradientProofs2 Proofs.SubgradientProofs3 Spec.SubgradientSpec.

(** ** parallel batches *)
Lemma vadd_zero_r a d : length a = d -> vadd a (vzero d) = a.
Proof.
  intro H. assert (L := vzero_length d). apply vec_ext. { apply vadd_length. congruence. } intros i _. rewrite get1_vadd by congruence. rewrite get1_vzero. ring.
Qed.
Section par.
Context {X Y : Type} (T : task X Y) (d : nat) (m : smodel X Y) (w : list Qc).
Hypothesis Hw : length w = d.
Lemma gather_deltas : forall B acc pos, length acc = d ->
  (forall p, In p B -> implements m T d (fst p) (snd p) /\ exact_laug m T w (fst p) (snd p)) ->
  exists cs Yh k, mapM (fun p => find_constraint m (fst p) (snd p) w None true) B = Ok cs /\
    labelling T (map fst B) Yh /\ hinges T w B (margins T w (map fst B) (map snd B) Yh) /\
    sg_gather cs acc pos = Ok (vadd acc (vsub (feat_sum T d (map fst B) (map snd B)) (feat_sum T d (map fst B) Yh)), k).
Proof.
  induction B as [|p B IH]; intros acc pos HA HB.
  - exists [], [], pos. cbn [mapM map sg_gather]. split; [reflexivity|]. split; [constructor|]. split; [constructor|].
    f_equal. f_equal. unfold feat_sum. cbn [combine map fold_right]. symmetry.
    replace (vsub (vzero d) (vzero d)) with (vzero d); [apply vadd_zero_r; exact HA|].
    assert (L := vzero_length d). apply vec_ext. { rewrite vsub_length; congruence. } intros i _. rewrite get1_vsub, get1_vzero by congruence. ring.
  - destruct (HB p (or_introl eq_refl)) as [HI HE]. assert (HB' := fun q Hq => HB q (or_intror Hq)).
    destruct (find_constraint_hinge m T d (fst p) (snd p) w HI Hw HE) as [yh [s [EF [_ [LY [ES [SN HH]]]]]]].
    assert (LL : forall y, t_label T (fst p) y -> length (t_feat T (fst p) y) = d) by (destruct HI as [_ [_ I3]]; intros y Hy; apply I3; exact Hy).
    assert (LT : t_label T (fst p) (snd p)) by apply HI. assert (L0 : t_loss T (snd p) (snd p) = 0) by apply HI.
    assert (GB : good T d (map fst B) (map snd B)).
    { split; [rewrite !map_length; reflexivity|]. rewrite split_pairs. intros q Hq. destruct (HB' q Hq) as [[A1 [A2 A3]] _]. split; [exact A1|]. split; [exact A2|]. intros y' Hy. apply A3. exact Hy. }
    assert (LDL : length (vsub (t_feat T (fst p) (snd p)) (t_feat T (fst p) yh)) = d) by (rewrite vsub_length; rewrite ?LL; auto).
    cbn [mapM]. rewrite EF. cbn [bind]. destruct (Qcltb_spec 0 s) as [Q|Q].
    + destruct (IH (vadd acc (vsub (t_feat T (fst p) (snd p)) (t_feat T (fst p) yh))) (S pos)) as [cs [Yh [k [A1 [A2 [A3 A4]]]]]]; [rewrite vadd_length; congruence|exact HB'|].
      rewrite A1. cbn [bind]. eexists. exists (yh :: Yh), k. split; [reflexivity|]. cbn [map]. split; [constructor; assumption|].
      split. { unfold margins. cbn [combine map fst snd]. constructor; [|exact A3]. rewrite margin_sub by (rewrite !LL; auto). rewrite <- ES. exact HH. }
      cbn [sg_gather]. destruct (Qcltb_spec 0 s) as [_|Q']; [|exfalso; revert Q'; apply Qclt_not_le; exact Q].
      unfold np_vadd. rewrite HA, LDL, Nat.eqb_refl. cbn [bind]. rewrite A4. f_equal. f_equal.
      assert (F1 := feat_sum_length T d _ _ _ GB (good_label _ _ _ _ GB)). assert (F2 := feat_sum_length T d _ _ _ GB A2).
      unfold feat_sum at 3 4. cbn [combine map fold_right fst snd]. fold (feat_sum T d (map fst B) (map snd B)). fold (feat_sum T d (map fst B) Yh).
      rewrite vsub_vadd by (rewrite ?F1, ?F2, ?LL; auto).
      set (a := vsub (t_feat T (fst p) (snd p)) (t_feat T (fst p) yh)) in *. set (b := vsub (feat_sum T d (map fst B) (map snd B)) (feat_sum T d (map fst B) Yh)).
      assert (LB : length b = d) by (unfold b; rewrite vsub_length; congruence).
      assert (L1 : length (vadd acc a) = d) by (rewrite vadd_length; congruence). assert (L2 : length (vadd a b) = d) by (rewrite vadd_length; congruence).
      apply vec_ext. { rewrite !vadd_length; congruence. } intros i _. rewrite !get1_vadd by congruence. ring.
    + destruct (IH acc pos HA HB') as [cs [Yh [k [A1 [A2 [A3 A4]]]]]].
      rewrite A1. cbn [bind]. eexists. exists (snd p :: Yh), k. split; [reflexivity|]. cbn [map]. split; [constructor; assumption|].
      assert (S0 : s = 0) by (apply Qcle_antisym; assumption).
      split. { unfold margins. cbn [combine map fst snd]. constructor; [|exact A3]. rewrite margin_self by exact L0. rewrite <- S0. exact HH. }
      cbn [sg_gather]. destruct (Qcltb_spec 0 s) as [Q'|_]; [exfalso; revert Q; apply Qclt_not_le; exact Q'|].
      rewrite A4. f_equal. f_equal. f_equal.
      assert (F1 := feat_sum_length T d _ _ _ GB (good_label _ _ _ _ GB)). assert (F2 := feat_sum_length T d _ _ _ GB A2).
      unfold feat_sum at 3 4. cbn [combine map fold_right fst snd]. fold (feat_sum T d (map fst B) (map snd B)). fold (feat_sum T d (map fst B) Yh).
      assert (LT' := LL _ LT). assert (L1 : length (vadd (t_feat T (fst p) (snd p)) (feat_sum T d (map fst B) (map snd B))) = d) by (rewrite vadd_length; congruence).
      assert (L2 : length (vadd (t_feat T (fst p) (snd p)) (feat_sum T d (map fst B) Yh)) = d) by (rewrite vadd_length; congruence).
      apply vec_ext. { rewrite !vsub_length; congruence. } intros i _. rewrite !get1_vsub, !get1_vadd by congruence. ring.
Qed.
End par.

Lemma par_step_dir {X Y} (T : task X Y) d prm (m : smodel X Y) n lr B st : 0 < sg_C prm -> (0 < n)%nat -> sm_size m = d ->
  oracle_exact m T d B -> can_step prm n (sg_t st) -> shaped d st -> sg_momentum prm = 0 ->
  exists st' k g, sg_par_step prm m n lr B st = Ok (st', k) /\ shaped d st' /\ step_against prm n lr g st st' /\
    strong_subgradient T d (sg_C prm * ofN n) B (sg_w st) g /\
    exists Yh, labelling T (map fst B) Yh /\
      g = vsub (sg_w st) (vscale (sg_C prm * ofN n) (vsub (feat_sum T d (map fst B) (map snd B)) (feat_sum T d (map fst B) Yh))).
Proof.
  intros HC Hn Hd HO HS SH HM. assert (SH' := SH). destruct SH' as [S1 [S2 S3]].
  destruct (gather_deltas T d m (sg_w st) S1 B (vzero d) 0 (vzero_length d)) as [cs [Yh [k [E1 [E2 [E3 E4]]]]]].
  { intros p Hp. destruct (HO p Hp) as [A1 A2]. auto. }
  assert (GB : good T d (map fst B) (map snd B)).
  { split; [rewrite !map_length; reflexivity|]. rewrite split_pairs. intros q Hq. destruct (HO q Hq) as [[A1 [A2 A3]] _]. split; [exact A1|]. split; [exact A2|]. intros y' Hy. apply A3. exact Hy. }
  set (dl := vsub (feat_sum T d (map fst B) (map snd B)) (feat_sum T d (map fst B) Yh)) in *.
  assert (LD : length dl = d) by (unfold dl; rewrite vsub_length; rewrite !(feat_sum_length T d (map fst B) (map snd B)); auto; eapply good_label; eauto).
  rewrite vadd_vzero_l in E4 by exact LD.
  destruct (solve_total prm n lr dl st HS) as [st' EST]; [congruence|congruence|].
  exists st', k, (vsub (sg_w st) (vscale (sg_C prm * ofN n) dl)). split.
  { unfold sg_par_step. rewrite E1. cbn [bind]. rewrite Hd, E4. cbn [bind fst snd]. rewrite EST. reflexivity. }
  split; [apply (solve_shaped prm n lr dl d st st' SH EST)|]. split; [apply step_direction; auto|]. split; [|exists Yh; split; [exact E2|reflexivity]].
  assert (SC := strong_core T d (sg_C prm * ofN n) (map fst B) (map snd B) Yh (sg_w st) GB E2). rewrite split_pairs in SC. apply SC; auto.
  apply Qcmult_nonneg; [apply Qclt_le_weak; exact HC|apply ofN_nonneg].
Qed.

(** ** early stopping *)
Lemma mini_pos {X Y} prm (bm : bmodel X Y) n lr b Bs : forall st pos st' pos', sg_mini prm bm n lr b Bs st pos = Ok (st', pos') ->
  pos' = (pos + b * Z.of_nat (length Bs))%Z.
Proof.
  induction Bs as [|B Bs IH]; intros st pos st' pos' H; cbn [sg_mini] in H.
  - injection H as _ <-. cbn [length]. lia.
  - apply bind_ok in H. destruct H as [s [_ H]]. apply IH in H. rewrite H. cbn [length]. lia.
Qed.
Lemma even_first start n q rest k : (0 < q \/ 0 < rest)%nat -> even_slices_from start n q rest (S k) <> [].
Proof.
  intro H. cbn [even_slices_from]. assert (E : (0 <? q + (if (0 <? rest)%nat then 1 else 0))%nat = true).
  { apply Nat.ltb_lt. destruct (Nat.ltb_spec 0 rest); lia. }
  rewrite E. discriminate.
Qed.
Lemma slices_some n b sl : sg_slices n b = Ok sl -> sl <> [].
Proof.
  unfold sg_slices. destruct (Z.eqb_spec b 0); [discriminate|]. destruct (Z.ltb_spec b 0); [discriminate|]. unfold gen_even_slices.
  set (bb := Z.to_nat b). assert (HB : (0 < bb)%nat) by (unfold bb; lia). set (p := ((n + bb - 1) / bb)%nat).
  destruct (Nat.ltb_spec p 1) as [|HP]; [discriminate|]. intro H1. injection H1 as <-.
  assert (HN : (0 < n)%nat).
  { destruct n; [|lia]. exfalso. unfold p in HP. rewrite Nat.div_small in HP by lia. lia. }
  destruct p as [|k] eqn:EP; [lia|]. apply even_first. destruct (Nat.eq_dec (n / S k) 0) as [Z|]; [|left; lia].
  right. apply Nat.div_small_iff in Z; [|lia]. rewrite Nat.mod_small by lia. exact HN.
Qed.
Lemma mini_epoch_pos {X Y} prm (bm : bmodel X Y) lr S st st' pos : mini_mode prm -> sg_epoch prm bm lr S st = Ok (st', pos) -> pos <> 0%Z.
Proof.
  intros [E1 [b [E2 E3]]] H. unfold sg_epoch in H. rewrite E1 in H. cbn [Z.eqb Pos.eqb] in H. unfold sg_sequential in H. rewrite E2 in H.
  destruct (Z.eqb_spec b 1); [congruence|]. apply bind_ok in H. destruct H as [Bs [A H]]. apply mini_pos in H. subst pos.
  destruct (Z.eqb_spec b (-1)) as [->|NB].
  - injection A as <-. cbn. lia.
  - apply bind_ok in A. destruct A as [sl [A A']]. injection A' as <-. rewrite map_length.
    assert (b <> 0%Z). { intro Z. subst b. unfold sg_slices in A. cbn in A. discriminate A. }
    apply slices_some in A. destruct sl; [congruence|]. cbn [length]. lia.
Qed.
Lemma never_stops {X Y} prm (bm : bmodel X Y) lr shuf : (forall S st st' pos, sg_epoch prm bm lr S st = Ok (st', pos) -> pos <> 0%Z) ->
  forall k it S st c st' c' S', sg_loop prm bm lr shuf k it S st c = Ok (st', c', S') -> length c' = (length c + k)%nat.
Proof.
  intro HE. induction k as [|k IH]; intros it S st c st' c' S' H; cbn [sg_loop] in H.
  - injection H as _ <- _. lia.
  - apply bind_ok in H. destruct H as [[s1 pos] [A H]]. apply HE in A. cbn [fst snd] in H. destruct (Z.eqb_spec pos 0); [congruence|]. cbn [andb] in H.
    apply bind_ok in H. destruct H as [o [_ H]]. apply IH in H. rewrite H, app_length. cbn [length]. lia.
Qed.
Lemma mini_fit_length {X Y} prm (bm : bmodel X Y) shuf S L w lr c t : mini_mode prm ->
  sg_fit prm bm shuf false S L = Ok (SGLearner t (Some (w, lr, c))) -> length c = Datatypes.S (sg_max_iter prm).
Proof.
  intros HM H. apply fit_split in H. destruct H as [lr' [c0 [st [c1 [S' [o [[_ ->] [A [_ E]]]]]]]]]. injection E as _ _ _ ->.
  apply never_stops in A; [|intros S0 s0 s1 pos; apply mini_epoch_pos; exact HM]. rewrite app_length, A. cbn [length]. lia.
Qed.
Lemma stops_quiet {X Y} prm (bm : bmodel X Y) lr shuf : forall k it S st c st' c' S', sg_loop prm bm lr shuf k it S st c = Ok (st', c', S') ->
  (length c' < length c + k)%nat -> sg_break prm = true /\ exists st1, sg_epoch prm bm lr S' st1 = Ok (st', 0%Z).
Proof.
  induction k as [|k IH]; intros it S st c st' c' S' H HL; cbn [sg_loop] in H.
  - injection H as _ <- _. lia.
  - apply bind_ok in H. destruct H as [[s1 pos] [A H]]. cbn [fst snd] in H. destruct (Z.eqb_spec pos 0) as [->|NZ].
    + destruct (sg_break prm); cbn [andb] in H.
      * injection H as <- <- <-. split; [reflexivity|]. eauto.
      * apply bind_ok in H. destruct H as [o [_ H]]. apply IH in H; [exact H|]. rewrite app_length. cbn [length]. lia.
    + cbn [andb] in H. apply bind_ok in H. destruct H as [o [_ H]]. apply IH in H; [exact H|]. rewrite app_length. cbn [length]. lia.
Qed.
(** epochs without a violation *)
Lemma online_pos {X Y} (T : task X Y) d prm (m : smodel X Y) n lr : forall S st pos st' pos', oracle_exact m T d S -> length (sg_w st) = d ->
  sg_online prm m n lr S st pos = Ok (st', pos') ->
  exists V hs, map fst V = S /\ sg_visits prm m n lr st V /\ visit_hinges T (befores st V) hs /\ Forall (fun h => 0 <= h) hs /\
    (pos <= pos')%Z /\ (pos' = pos <-> Forall (fun h => h = 0) hs).
Proof.
  induction S as [|p S IH]; intros st pos st' pos' HO Hw H; cbn [sg_online] in H.
  - injection H as _ <-. exists [], []. split; [reflexivity|]. split; [exact I|]. split; [constructor|]. split; [constructor|]. split; [lia|]. split; auto.
  - apply bind_ok in H. destruct H as [[s b] [A H]]. assert (A' := A). apply online_step_solve in A'. destruct A' as [yh [dj [sl [l [EF [ES EB]]]]]].
    destruct (HO p (or_introl eq_refl)) as [HI HE]. destruct (find_constraint_hinge m T d (fst p) (snd p) (sg_w st) HI Hw (HE _ Hw)) as [yh' [s' [EF' [_ [_ [_ [SN HH]]]]]]].
    rewrite EF in EF'. injection EF' as _ _ -> _.
    assert (Hs : length (sg_w s) = d). { apply solve_ok in ES. destruct ES as [_ [L1 [L2 [_ [E2 _]]]]]. rewrite E2, vadd_length; rewrite ?vscale_length, ?new_grad_length; auto. }
    cbn [fst snd] in H. apply IH in H; [|intros q Hq; apply HO; right; exact Hq|exact Hs]. destruct H as [V [hs [B1 [B2 [B3 [B4 [B5 B6]]]]]]].
    exists ((p, s) :: V), (s' :: hs). cbn [map fst befores sg_visits]. split; [congruence|]. split; [split; [eauto|exact B2]|]. split; [constructor; [exact HH|exact B3]|].
    split; [constructor; assumption|]. destruct b.
    + symmetry in EB. apply Qcltb_lt in EB. split; [lia|]. split; [lia|]. intro F. apply Forall_cons_iff in F. destruct F as [-> _]. discriminate EB.
    + symmetry in EB. apply Qcltb_ge in EB. split; [exact B5|]. split.
      * intro E. constructor; [apply Qcle_antisym; assumption|]. apply B6. exact E.
      * intro F. apply Forall_cons_iff in F. apply B6. apply F.
Qed.
Lemma online_stop {X Y} (T : task X Y) d prm (bm : bmodel X Y) shuf S L w lr c t : online_mode prm ->
  (forall it S, Permutation (shuf it S) S) -> oracle_exact (bm_s bm) T d S -> sm_size (bm_s bm) = d ->
  (forall w lr c, sl_fitted L = Some (w, lr, c) -> length w = d) ->
  sg_fit prm bm shuf false S L = Ok (SGLearner t (Some (w, lr, c))) -> (length c <= sg_max_iter prm)%nat ->
  sg_break prm = true /\ exists st0 V, Permutation (map fst V) S /\ sg_visits prm (bm_s bm) (length S) lr st0 V /\
    w = sg_self (last (map snd V) st0) /\ visit_hinges T (befores st0 V) (map (fun _ => 0) V).
Proof.
  intros HM HS HO Hd HL H HC. apply fit_split in H. destruct H as [lr' [c0 [st [c1 [S' [o [[_ ->] [A [_ E]]]]]]]]]. injection E as -> -> -> ->.
  rewrite app_length in HC. cbn [length] in HC.
  assert (GEN : forall k it S1 st c st' c' S', Permutation S1 S -> length (sg_w st) = d -> sg_loop prm bm lr' shuf k it S1 st c = Ok (st', c', S') -> (length c' < length c + k)%nat ->
     sg_break prm = true /\ exists st1, Permutation S' S /\ length (sg_w st1) = d /\ sg_epoch prm bm lr' S' st1 = Ok (st', 0%Z)).
  { clear - HS. induction k as [|k IH]; intros it S1 st c st' c' S' HP HW H HL; cbn [sg_loop] in H.
    - injection H as _ <- _. lia.
    - apply bind_ok in H. destruct H as [[s1 pos] [A H]]. cbn [fst snd] in H.
      assert (HP' : Permutation (shuf it S1) S) by (eapply Permutation_trans; [apply HS|exact HP]).
      assert (LW : length (sg_w s1) = d).
      { apply epoch_reach in A. destruct A as [tr [HTr EL]]. cbn [fst] in EL. rewrite <- EL. clear - HTr HW.
        revert st HW HTr. induction tr as [|s tr IH]; intros st HW H; [exact HW|]. destruct H as [[dj A] H]. rewrite last_cons. apply IH; [|exact H].
        apply solve_ok in A. destruct A as [_ [L1 [L2 [_ [E2 _]]]]]. rewrite E2, vadd_length; rewrite ?vscale_length, ?new_grad_length; auto. }
      destruct (Z.eqb_spec pos 0) as [->|NZ].
      + destruct (sg_break prm); cbn [andb] in H.
        * injection H as <- <- <-. split; [reflexivity|]. eauto.
        * apply bind_ok in H. destruct H as [o [_ H]]. apply IH in H; auto. rewrite app_length. cbn [length]. lia.
      + cbn [andb] in H. apply bind_ok in H. destruct H as [o [_ H]]. apply IH in H; auto. rewrite app_length. cbn [length]. lia. }
  apply GEN in A.
  - destruct A as [B0 [st1 [B1 [B2 B3]]]]. split; [exact B0|]. rewrite online_epoch in B3 by auto.
    assert (LS : length S' = length S) by (apply Permutation_length; exact B1). rewrite LS in B3. assert (B3' := B3).
    apply (online_pos T d) in B3; [|intros q Hq; apply HO; eapply Permutation_in; eauto|exact B2].
    destruct B3 as [V [hs [C1 [C2 [C3 [_ [_ C5]]]]]]]. exists st1, V. split; [rewrite C1; exact B1|]. split; [exact C2|]. split.
    + apply online_visits in B3'. destruct B3' as [V' [D1 [D2 D3]]]. rewrite <- D3. unfold final_of. f_equal.
      assert (EV : V' = V). { clear - C1 C2 D1 D2. subst S'. revert V st1 C2 D1 D2. induction V' as [|[p s] V' IH]; intros [|[q z] V] st C2 D1 D2; try discriminate D1; [reflexivity|].
        cbn [map fst] in D1. injection D1 as -> D1. destruct C2 as [[b C2] C2']. destruct D2 as [[b' D2] D2']. assert (E : s = z) by congruence. subst z. f_equal. eapply IH; eauto. }
      rewrite EV. reflexivity.
    + assert (C6 := proj1 C5 eq_refl). replace (map (fun _ => 0) V) with hs; [exact C3|].
      assert (LH : length hs = length V). { apply Forall2_len in C3. rewrite <- C3. clear. revert st1. induction V as [|[p s] V IH]; intro st; [reflexivity|]. cbn [befores length]. rewrite IH. reflexivity. }
      clear - C6 LH. revert V LH. induction C6 as [|h hs -> F IH]; intros [|v V] LH; try discriminate LH; [reflexivity|]. cbn [map]. f_equal. apply IH. cbn in LH. lia.
  - apply Permutation_refl.
  - unfold fit_start. cbn [sg_w]. destruct (sl_fitted L) as [[[w0 l0] c0]|] eqn:EL; [eapply HL; reflexivity|]. rewrite Hd. apply vzero_length.
  - cbn [length] in *. lia.
Qed.

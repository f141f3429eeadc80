(** What primal_objective_curve_ records: the one-slack learner. *)
From Verif Require Import Model.OneSlack Spec.OneSlackSpec Proofs.Arrays Proofs.LossProofs Proofs.LearnerProofs Proofs.QPProofs Proofs.OneSlackProofs Proofs.OneSlackQP Proofs.OneSlackProofs2 Proofs.OneSlackProofs5 Proofs.OneSlackExamples.

Section curve.
Context {X Y : Type} (T : task X Y) (d : nat) (ceq : Y -> Y -> res bool) (solve : qp_solver) (prm : os_params).
Variables (Xs : list X) (Ys : list Y).
Notation SS := (combine Xs Ys).
Hypothesis HN : (0 < length Xs)%nat.
Hypothesis HC : 0 <= o_C prm.
Hypothesis HS : qp_sound solve.

Definition entry_ok (e : list Qc * Qc * bool) : Prop :=
  length (fst (fst e)) = d /\ exists hs, hinges T (fst (fst e)) SS hs /\ snd (fst e) <= primal_value (o_C prm) (fst (fst e)) hs /\
    (snd e = false -> snd (fst e) = primal_value (o_C prm) (fst (fst e)) hs).
Definition usable_exact (bm : bmodel X Y) : Prop := batch_exact bm T d Xs Ys /\ (o_cache prm = O \/ sm_rescale (bm_s bm) = false).

Lemma clipped w Yh c hs : good T d Xs Ys -> length w = d -> mean_con T d Xs Ys Yh c -> hinges T w SS hs ->
  o_C prm * ofN (length Xs) * Qcmax (violation w c) 0 + normsq w / (1 + 1) <= primal_value (o_C prm) w hs.
Proof.
  intros G Hw HM HH. rewrite <- (mean_primal Xs HN). apply Qcplus_le_compat; [|apply Qcle_refl].
  rewrite !(Qcmult_comm (o_C prm * ofN (length Xs))). apply Qcmult_le_compat_r; [|apply Cn_nonneg; exact HC].
  apply Qcmax_lub; [eapply con_bound; eauto|]. eapply Qcle_trans; [|eapply (con_bound T d Xs Ys G HN w (vzero d, 0) Ys); eauto; apply gt_con; auto].
  unfold violation. cbn [fst snd]. rewrite dot_vzero_r. apply Qceq_le. ring.
Qed.
Lemma step_entry st cached c st' Yh : inv T d Xs Ys prm [] st -> mean_con T d Xs Ys Yh c -> good T d Xs Ys ->
  os_step solve prm (length Xs) cached c st = Ok st' ->
  o_primal st' = o_primal st ++ [o_C prm * ofN (length Xs) * Qcmax (violation (o_w st) c) 0 + normsq (o_w st) / (1 + 1)] /\
  o_cached st' = o_cached st ++ [cached] /\ inv T d Xs Ys prm [] st'.
Proof.
  intros HI HM G H. destruct (step_inv T d Xs Ys G HN solve prm HC [] st cached c Yh st' HS HI HM H) as [I' _].
  destruct (step_record _ _ _ _ _ _ _ H) as [p [obj [q [v [-> [A [_ [_ [_ [_ [B _]]]]]]]]]]]. auto.
Qed.

Lemma loop_trace k : forall bm sw st st' reason bm', usable_exact bm -> (forall b, sw = Some b -> usable_exact b) -> inv T d Xs Ys prm [] st ->
  os_loop ceq solve prm Xs Ys (feat_sum T d Xs Ys) k bm sw st = Ok (st', reason, bm') ->
  exists tr, o_primal st' = o_primal st ++ map (fun e => snd (fst e)) tr /\ o_cached st' = o_cached st ++ map snd tr /\ Forall entry_ok tr /\
    usable_exact bm' /\ inv T d Xs Ys prm [] st'.
Proof.
  induction k as [|k IH]; intros bm sw st st' reason bm' HB HSW HI H; cbn [os_loop] in H.
  { injection H as <- <- <-. exists []. cbn [map]. rewrite !app_nil_r. auto. }
  destruct HB as [HE HR]. assert (HB := proj1 HE). assert (G := batch_good _ _ _ _ _ HB).
  assert (JOIN : forall st0 st1 c Yh cached, mean_con T d Xs Ys Yh c -> inv T d Xs Ys prm [] st0 -> o_primal st0 = o_primal st -> o_cached st0 = o_cached st -> o_w st0 = o_w st ->
    (cached = false -> exists hs, hinges T (o_w st) SS hs /\ violation (o_w st) c = lsum hs / ofN (length Xs)) ->
    os_step solve prm (length Xs) cached c st0 = Ok st1 -> os_loop ceq solve prm Xs Ys (feat_sum T d Xs Ys) k bm sw st1 = Ok (st', reason, bm') ->
    exists tr, o_primal st' = o_primal st ++ map (fun e => snd (fst e)) tr /\ o_cached st' = o_cached st ++ map snd tr /\ Forall entry_ok tr /\
      usable_exact bm' /\ inv T d Xs Ys prm [] st').
  { intros st0 st1 c Yh cached HM I0 P1 P2 P3 FR ES EL. destruct (step_entry _ _ _ _ _ I0 HM G ES) as [A1 [A2 A3]].
    destruct (IH bm sw st1 st' reason bm' (conj HE HR) HSW A3 EL) as [tr [B1 [B2 [B3 [B4 B5]]]]].
    exists ((o_w st, o_C prm * ofN (length Xs) * Qcmax (violation (o_w st) c) 0 + normsq (o_w st) / (1 + 1), cached) :: tr). cbn [map fst snd].
    split. { rewrite B1, A1, P1, P3, <- app_assoc. reflexivity. }
    split. { rewrite B2, A2, P2, <- app_assoc. reflexivity. }
    split; [|auto]. constructor; [|exact B3]. split; [apply HI|]. cbn [fst snd].
    destruct (exact_hinges T d Xs Ys bm (o_w st) G HE (proj1 HI)) as [Yx [_ [_ HH]]]. exists (margins T (o_w st) Xs Ys Yx). split; [exact HH|].
    split; [eapply clipped; eauto; apply HI|]. intro F. destruct (FR F) as [hs [H1 H2]]. rewrite (hinges_unique T Xs Ys _ _ _ HH H1) in *.
    rewrite <- (mean_primal Xs HN). f_equal. f_equal. rewrite H2. apply Qcle_antisym; [|apply Qcmax_ge_l].
    apply Qcmax_lub; [apply Qcle_refl|]. eapply Qcle_trans; [|eapply (con_bound T d Xs Ys G HN (o_w st) (vzero d, 0) Ys); eauto; [apply HI|apply gt_con; auto]].
    unfold violation. cbn [fst snd]. rewrite dot_vzero_r. apply Qceq_le. ring. }
  apply bind_ok in H. destruct H as [oc [EC H]]. destruct oc as [c|].
  - apply bind_ok in H. destruct H as [st1 [E1 H]].
    destruct (from_cache_con T d Xs Ys G HN prm (bm_s bm) st c (proj1 HB) (proj1 (proj2 (proj2 (proj2 HI)))) EC) as [Yh HM].
    eapply (JOIN st st1 c Yh true); eauto. discriminate.
  - apply bind_ok in H. destruct H as [r [EF H]].
    destruct (find_new_form T d Xs Ys G HN prm bm (o_w st) _ _ r HB (proj1 HI) EF) as [Yh [c [bad [EL [HM [_ ER]]]]]].
    destruct bad; subst r.
    + destruct sw as [b|].
      * eapply (IH b None st); [apply HSW; reflexivity|intros b2 Q; discriminate Q|exact HI|exact H].
      * injection H as <- <- <-. exists []. cbn [map]. rewrite !app_nil_r. repeat (split; auto).
    + apply bind_ok in H. destruct H as [cache [EU H]]. apply bind_ok in H. destruct H as [st1 [E1 H]].
      eapply (JOIN _ st1 c Yh false HM); try exact E1; try exact H; try reflexivity.
      * destruct HI as [I1 [I2 [I3 [I4 [I5 I6]]]]]. repeat (split; [assumption|]). split; [|split; [exact I5|exact I6]].
        cbn [o_icache]. eapply update_cache_valid; eauto. apply HM.
      * intros _. destruct (exact_hinges T d Xs Ys bm (o_w st) G HE (proj1 HI)) as [Yx [EX [_ HH]]]. assert (Yx = Yh) by congruence. subst Yx.
        eexists. split; [exact HH|]. apply (con_violation T d Xs Ys G HN); [apply HI|exact HM].
Qed.

Lemma os_entries bm sw st reason : usable_exact bm -> (forall b, sw = Some b -> usable_exact b) ->
  os_fit ceq solve prm bm sw Xs Ys Cold = Ok (st, reason) ->
  exists tr v hs, o_primal st = map (fun e => snd (fst e)) tr ++ [primal_value (o_C prm) (o_w st) hs] /\ hinges T (o_w st) SS hs /\
    o_cached st = map snd tr ++ [v] /\ v = false /\ length (o_w st) = d /\ Forall entry_ok tr.
Proof.
  intros HB HSW H. destruct (fit_split T d ceq solve prm Xs Ys bm sw Cold st reason (conj (proj1 (proj1 HB)) (proj2 HB)) H) as [s0 [st0 [bm' [p [obj [E0 [EL [EP [EO ->]]]]]]]]].
  assert (G := batch_good _ _ _ _ _ (proj1 (proj1 HB))).
  assert (I0 : inv T d Xs Ys prm [] s0).
  { destruct (OneSlackProofs.start_inv T d Xs Ys G prm [] Cold I ltac:(intros a [Q|Q]; discriminate Q) (fun _ => eq_refl)) as [s1 [E1 [A _]]]. congruence. }
  destruct (loop_trace _ bm sw s0 st0 reason bm' HB HSW I0 EL) as [tr [A1 [A2 [A3 [A4 A5]]]]].
  cbn [os_start] in E0. injection E0 as <-. cbn [o_primal o_cached app] in *.
  destruct (objective_value (bm_s bm') T d (o_w st0) Xs Ys (o_C prm) OneSlack (proj1 G)) as [hs [HH EP2]].
  { intros ->. cbn in HN. lia. } { apply A5. }
  { intros q Hq. destruct (proj1 (proj2 (proj1 A4)) q Hq) as [Q1 Q2]. split; auto. apply Q2. apply A5. }
  exists tr, false, hs. cbn [o_primal o_cached o_w]. rewrite A1, A2. replace p with (primal_value (o_C prm) (o_w st0) hs) by congruence.
  repeat (split; auto). apply A5.
Qed.

Lemma os_gap bm sw st reason : usable_exact bm -> (forall b, sw = Some b -> usable_exact b) ->
  os_fit ceq solve prm bm sw Xs Ys Cold = Ok (st, reason) ->
  length (o_cached st) = length (o_primal st) /\
  forall i, (i < length (o_primal st))%nat -> nth i (o_cached st) true = false ->
    exists v hs, length v = d /\ hinges T v SS hs /\ nth i (o_primal st) 0 = primal_value (o_C prm) v hs /\
      forall o, In o (o_curve st) -> o <= nth i (o_primal st) 0 /\
        forall w' hs', length w' = d -> hinges T w' SS hs' -> primal_value (o_C prm) v hs <= primal_value (o_C prm) w' hs' + (nth i (o_primal st) 0 - o).
Proof.
  intros HB HSW H. destruct (os_entries bm sw st reason HB HSW H) as [tr [v0 [hs0 [A1 [A2 [A3 [-> [A4 A5]]]]]]]].
  assert (UO : forall b, usable_exact b -> usable T d prm Xs Ys b) by (intros b [Q1 Q2]; split; [apply Q1|exact Q2]).
  destruct (fit1_lower_bound T d ceq solve prm Xs Ys bm sw st reason HN HC HS (UO bm HB) (fun b E => UO b (HSW b E)) H) as [_ [LB _]].
  split. { rewrite A1, A3, !app_length, !map_length. reflexivity. }
  intros i Hi HF.
  assert (E : exists v hs, length v = d /\ hinges T v SS hs /\ nth i (o_primal st) 0 = primal_value (o_C prm) v hs).
  { rewrite A1, app_length, map_length in Hi. cbn [length] in Hi. destruct (Nat.lt_ge_cases i (length tr)) as [L|L].
    - rewrite A3, app_nth1 in HF by (rewrite map_length; exact L). rewrite A1, app_nth1 by (rewrite map_length; exact L).
      set (e0 := ([] : list Qc, 0, true)). change true with (snd e0) in HF. rewrite map_nth in HF.
      change 0 with ((fun e : list Qc * Qc * bool => snd (fst e)) e0). rewrite map_nth. rewrite Forall_forall in A5.
      destruct (A5 (nth i tr e0) (nth_In _ _ L)) as [B1 [hs [B2 [_ B3]]]]. eauto 8.
    - exists (o_w st), hs0. split; auto. split; auto. rewrite A1, app_nth2 by (rewrite map_length; exact L). rewrite map_length.
      replace (i - length tr)%nat with O by lia. reflexivity. }
  destruct E as [v [hs [B1 [B2 B3]]]]. exists v, hs. repeat (split; [assumption|]). intros o Ho. split.
  - rewrite B3. apply (LB o Ho); assumption.
  - intros w' hs' Hw HH. assert (Q := LB o Ho w' hs' Hw HH). rewrite B3. set (x := primal_value (o_C prm) v hs). set (y := primal_value (o_C prm) w' hs') in *. clearbody x y. qclra.
Qed.
End curve.

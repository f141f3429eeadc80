(** Interrupted batch Frank-Wolfe. *)
From Verif Require Import Model.InterruptFW Spec.FrankWolfeSpec Proofs.Arrays Proofs.LearnerProofs Proofs.OneSlackProofs2 Proofs.FrankWolfeProofs Proofs.FrankWolfeProofs2 Proofs.FrankWolfeProofs3 Proofs.FrankWolfeProofs4.

Lemma loop_points {X Y} prm (bm : bmodel X Y) Xs Ys gt : forall n it st0 pt w p c, In (pt, (w, p, c)) (fwb_loop_points prm bm Xs Ys gt n it st0) ->
  exists k st, (k <= n)%nat /\ fw_batch_loop prm bm Xs Ys gt k it st0 = Ok st /\ w = fb_w st /\
    match pt with
    | BBefore | BWeights => p = fb_primal st /\ c = fb_curve st
    | BPrimal => c = fb_curve st /\ (k < n)%nat /\ exists st', fw_batch_loop prm bm Xs Ys gt (S k) it st0 = Ok st' /\ p = fb_primal st'
    | BDual => (k < n)%nat /\ exists st', fw_batch_loop prm bm Xs Ys gt (S k) it st0 = Ok st' /\ p = fb_primal st' /\ c = fb_curve st'
    end.
Proof.
  induction n as [|n IH]; intros it st0 pt w p c H; cbn [fwb_loop_points] in H; [destruct H|].
  apply in_app_or in H. destruct (fw_batch_step prm bm Xs Ys gt it st0) as [[s1 gap]|e] eqn:E.
  - assert (ONE : fw_batch_loop prm bm Xs Ys gt 1 it st0 = Ok s1) by (cbn [fw_batch_loop]; rewrite E; cbn [bind fst snd]; destruct (Qcltb gap (fw_tol prm)); reflexivity).
    destruct H as [H|H].
    + unfold fwb_points in H. rewrite E in H. destruct H as [H|[H|[H|[H|[]]]]]; injection H as <- <- <- <-.
      * exists O, st0. split; [lia|]. split; [reflexivity|]. auto.
      * exists O, st0. split; [lia|]. split; [reflexivity|]. split; [reflexivity|]. split; [reflexivity|]. split; [lia|]. exists s1. auto.
      * exists O, st0. split; [lia|]. split; [reflexivity|]. split; [reflexivity|]. split; [lia|]. exists s1. auto.
      * exists 1%nat, s1. split; [lia|]. auto.
    + destruct (Qcltb gap (fw_tol prm)) eqn:G; [destruct H|]. apply IH in H. destruct H as [k [st [K1 [K2 [K3 K4]]]]].
      assert (NEXT : forall j s, fw_batch_loop prm bm Xs Ys gt j (S it) s1 = Ok s -> fw_batch_loop prm bm Xs Ys gt (S j) it st0 = Ok s).
      { intros j s Hj. cbn [fw_batch_loop]. rewrite E. cbn [bind fst snd]. rewrite G. exact Hj. }
      exists (S k), st. split; [lia|]. split; [apply NEXT; exact K2|]. split; [exact K3|]. destruct pt.
      * exact K4.
      * destruct K4 as [A1 [A2 [s' [A3 A4]]]]. split; [exact A1|]. split; [lia|]. exists s'. split; [apply NEXT; exact A3|exact A4].
      * destruct K4 as [A2 [s' [A3 A4]]]. split; [lia|]. exists s'. split; [apply NEXT; exact A3|exact A4].
      * exact K4.
  - destruct H as [H|[]]. unfold fwb_points in H. rewrite E in H. destruct H as [H|[]]. injection H as <- <- <- <-.
    exists O, st0. split; [lia|]. split; [reflexivity|]. auto.
Qed.
(** every state of the loop is seen at some point *)
Lemma loop_points_end {X Y} prm (bm : bmodel X Y) Xs Ys gt : forall n it st0 st, (0 < n)%nat -> fw_batch_loop prm bm Xs Ys gt n it st0 = Ok st ->
  In (BWeights, (fb_w st, fb_primal st, fb_curve st)) (fwb_loop_points prm bm Xs Ys gt n it st0).
Proof.
  induction n as [|n IH]; intros it st0 st HN H; [lia|]. cbn [fw_batch_loop] in H. cbn [fwb_loop_points]. apply in_or_app.
  unfold fwb_points. destruct (fw_batch_step prm bm Xs Ys gt it st0) as [[s1 gap]|e]; [|discriminate H]. cbn [bind fst snd] in H.
  destruct (Qcltb gap (fw_tol prm)). { injection H as <-. left. cbn. auto. }
  destruct n as [|n]. { cbn [fw_batch_loop] in H. injection H as <-. left. cbn. auto. }
  right. apply IH; [lia|exact H].
Qed.

Lemma fwb_bounds {X Y} (T : task X Y) d prm Xs Ys (bm : bmodel X Y) gt : (0 < length Xs)%nat -> 0 <= fw_C prm -> fw_C prm <> 0 -> fw_usable T d Xs Ys bm ->
  bm_joint bm Xs Ys (Some Ys) = Ok gt -> forall n pt w p c l, In (pt, (w, p, c)) (fwb_loop_points prm bm Xs Ys gt n 0 (FWBState (vzero d) 0 [] [])) ->
  (exists l', dual_feasible T d (fw_C prm) (combine Xs Ys) w l') /\
  Forall (fun o => forall w' hs, length w' = d -> hinges T w' (combine Xs Ys) hs -> o <= primal_value (fw_C prm) w' hs) c /\
  (c = [] -> fw_finish prm bm Xs Ys w l p c = Err IndexError) /\
  (c <> [] -> exists o, objective_primal (bm_s bm) w Xs Ys (fw_C prm) NSlack = Ok o /\ fw_finish prm bm Xs Ys w l p c = Ok (w, l, p ++ [o], c ++ [last c 0])).
Proof.
  intros HN HC HCZ HU EG n pt w p c l H. apply loop_points in H. destruct H as [k [st [_ [K2 [K3 K4]]]]].
  assert (J := proj1 (usable_joint T d Xs Ys bm HU)). assert (gt = feat_sum T d Xs Ys) by congruence. subst gt.
  assert (INV : forall j s, fw_batch_loop prm bm Xs Ys (feat_sum T d Xs Ys) j 0 (FWBState (vzero d) 0 [] []) = Ok s -> binv T d prm Xs Ys s).
  { intros j s Hj. destruct (batch_loop_inv T d prm Xs Ys bm HN HC HU j HCZ 0%nat (FWBState (vzero d) 0 [] [])) as [s' [E [I _]]].
    - split; [apply (zero_feasible T d prm Xs Ys bm HU)|]. split; [constructor|]. intros _. split; [apply ascending_nil|constructor].
    - assert (s' = s) by congruence. subst s'. exact I. }
  assert (IN := INV k st K2). destruct IN as [F [B _]].
  assert (HW : length w = d). { rewrite K3. refine (feasible_length T d (fw_C prm) (combine Xs Ys) _ _ _ F). apply good_sized. exact (HG T d Xs Ys bm HU). }
  assert (CB : Forall (fun o => forall w' hs, length w' = d -> hinges T w' (combine Xs Ys) hs -> o <= primal_value (fw_C prm) w' hs) c).
  { destruct pt.
    - destruct K4 as [_ ->]. exact B.
    - destruct K4 as [-> _]. exact B.
    - destruct K4 as [_ [s' [E [_ ->]]]]. exact (proj1 (proj2 (INV _ s' E))).
    - destruct K4 as [_ ->]. exact B. }
  split; [exists (fb_l st); rewrite K3; exact F|]. split; [exact CB|].
  destruct (objective_total T d prm Xs Ys bm HN HU w HW) as [o Eo]. unfold fw_finish. rewrite Eo. cbn [bind]. split.
  - intros ->. reflexivity.
  - intro NE. exists o. split; [reflexivity|]. destruct (last_of c) as [v|e] eqn:EL.
    + apply last_of_ok in EL. destruct EL as [_ ->]. reflexivity.
    + exfalso. unfold last_of in EL. destruct (rev c) as [|v r] eqn:ER; [|discriminate EL]. apply NE. apply (f_equal (@rev Qc)) in ER. rewrite rev_involutive in ER. exact ER.
Qed.
Lemma fit_finish {X Y} prm (bm : bmodel X Y) Xs Ys sched : fw_batch prm = true ->
  fw_fit prm bm Xs Ys sched None = (let! s := frank_wolfe_batch prm bm Xs Ys (vzero (sm_size (bm_s bm))) in fw_finish prm bm Xs Ys (fb_w s) 0 (fb_primal s) (fb_curve s)).
Proof.
  intro HB. unfold fw_fit. rewrite HB. destruct (frank_wolfe_batch prm bm Xs Ys (vzero (sm_size (bm_s bm)))) as [s|e]; reflexivity.
Qed.

(** Momentum in SubgradientLatentSSVM. *)
From Coq Require Import ZArith.
From Verif Require Import Model.Subgradient Model.SubgradientLatent Spec.MomentumSpec Proofs.Arrays Proofs.LossProofs Proofs.CRFProofs Proofs.LearnerProofs Proofs.QPProofs Proofs.SubgradientProofs
  Proofs.MomentumProofs.

Lemma lonline_reach {X Y} prm (m : lmodel X Y) n lr S : forall st pos obj r, lsg_online prm m n lr S st pos obj = Ok r -> reach prm n lr st (fst (fst r)).
Proof.
  induction S as [|p S IH]; intros st pos obj r H; cbn [lsg_online] in H; [injection H as <-; apply reach_refl|].
  apply bind_ok in H. destruct H as [[st1 b] [A H]]. unfold lsg_online_step in A. do 7 (apply bind_ok in A; destruct A as [? [_ A]]). apply bind_ok in A. destruct A as [st2 [A A']]. injection A' as <- _.
  eapply reach_trans; [eapply reach_step; exact A|]. eapply IH. exact H.
Qed.
Lemma lpar_reach {X Y} prm (m : lmodel X Y) n lr Bs : forall st pos obj r, lsg_par prm m n lr Bs st pos obj = Ok r -> reach prm n lr st (fst (fst r)).
Proof.
  induction Bs as [|B Bs IH]; intros st pos obj r H; cbn [lsg_par] in H; [injection H as <-; apply reach_refl|].
  apply bind_ok in H. destruct H as [cs [_ H]]. apply bind_ok in H. destruct H as [[[dj p] o] [_ H]]. apply bind_ok in H. destruct H as [? [_ H]]. apply bind_ok in H. destruct H as [st1 [A H]].
  eapply reach_trans; [eapply reach_step; exact A|]. eapply IH. exact H.
Qed.
Lemma lepoch_reach {X Y} prm (m : lmodel X Y) lr S st r : lsg_epoch prm m lr S st = Ok r -> reach prm (length S) lr st (fst (fst r)).
Proof.
  unfold lsg_epoch. destruct (sg_jobs prm =? 1)%Z; [apply lonline_reach|]. destruct (sg_jobs prm =? -1)%Z; [|discriminate].
  intro H. apply bind_ok in H. destruct H as [sl [_ H]]. eapply lpar_reach. exact H.
Qed.
Lemma lloop_reach {X Y} prm (m : lmodel X Y) lr S : forall k st c st' c', lsg_loop prm m lr S k st c = Ok (st', c') -> reach prm (length S) lr st st'.
Proof.
  induction k as [|k IH]; intros st c st' c' H; cbn [lsg_loop] in H; [injection H as <- _; apply reach_refl|].
  apply bind_ok in H. destruct H as [[[st1 pos] obj] [A H]]. assert (R := lepoch_reach _ _ _ _ _ _ A). cbn [fst] in R.
  destruct ((pos =? 0)%nat && sg_break prm)%bool; [injection H as <- _; exact R|]. eapply reach_trans; [exact R|]. eapply IH. exact H.
Qed.
Lemma lfit_reach {X Y} prm (m : lmodel X Y) w0 (warm : bool) S L L' : lsg_fit prm m w0 warm S L = Ok L' ->
  let w := match sl_fitted L with Some (w, _, _) => w | None => w0 end in
  exists lr c st, reach prm (length S) lr (SGState w w (vzero (sm_size (lm_s m))) (sl_t L)) st /\ L' = SGLearner (sg_t st) (Some (sg_self st, lr, c)).
Proof.
  intros H w. unfold lsg_fit in H. apply bind_ok in H. destruct H as [[lr c0] [_ H]]. apply bind_ok in H. destruct H as [[st c] [A H]]. apply bind_ok in H. destruct H as [o [_ H]].
  injection H as <-. apply lloop_reach in A. cbn [fst snd] in *. exists lr, (c ++ [o]), st. split; [exact A|reflexivity].
Qed.
(** any run that starts without a direction *)
Lemma fading_run prm n lr st0 : (forall i, get1 (sg_grad st0) i = 0) -> forall l, sg_run prm n lr st0 l -> sg_t (run_end st0 l) = (sg_t st0 + length l)%nat /\
  forall l1 dj st l2, l = l1 ++ (dj, st) :: l2 -> forall i,
    get1 (sg_w st) i = get1 (sg_w (run_end st0 l1)) i + rate_at prm lr (sg_t st0 + length l1) *
      ((1 - sg_momentum prm) * fading_sum (sg_momentum prm) (map (fun g => get1 g i) (plain_directions (sg_C prm) n st0 (l1 ++ [(dj, st)])))).
Proof.
  intros HZ l R1.
  assert (TT : forall l st, sg_run prm n lr st l -> sg_t (run_end st l) = (sg_t st + length l)%nat).
  { clear. induction l as [|[dj s] l IH]; intros st H; cbn [run_end length]; [lia|]. destruct H as [H1 H2]. rewrite (IH s H2). apply solve_ok in H1. destruct H1 as [_ [_ [_ [_ [_ [_ ->]]]]]]. lia. }
  split; [exact (TT l st0 R1)|]. intros l1 dj s l2 E i. rewrite E in R1. apply run_app in R1. destruct R1 as [A1 [A2 _]].
  assert (A3 : sg_run prm n lr st0 (l1 ++ [(dj, s)])) by (apply run_app; split; [exact A1|split; [exact A2|exact I]]).
  destruct (momentum_step _ _ _ _ _ _ A2 i) as [_ ->]. rewrite (TT l1 st0 A1). f_equal. f_equal. assert (M := momentum_run prm n lr i _ _ A3).
  assert (RE : run_end st0 (l1 ++ [(dj, s)]) = s). { clear. generalize st0. induction l1 as [|[a b] l1 IH]; intro x; [reflexivity|]. cbn [app run_end]. apply IH. }
  rewrite RE in M. rewrite M, HZ. ring.
Qed.
Lemma latent_momentum_fit {X Y} prm (m : lmodel X Y) w0 (warm : bool) S L L' : lsg_fit prm m w0 warm S L = Ok L' ->
  exists lr w c l, let ws := match sl_fitted L with Some (w, _, _) => w | None => w0 end in let st0 := SGState ws ws (vzero (sm_size (lm_s m))) (sl_t L) in
    sg_run prm (length S) lr st0 l /\ L' = SGLearner (sl_t L + length l) (Some (w, lr, c)) /\ w = sg_self (run_end st0 l) /\
    forall l1 dj st l2, l = l1 ++ (dj, st) :: l2 -> forall i,
      get1 (sg_w st) i = get1 (sg_w (run_end st0 l1)) i + rate_at prm lr (sl_t L + length l1) *
        ((1 - sg_momentum prm) * fading_sum (sg_momentum prm) (map (fun g => get1 g i) (plain_directions (sg_C prm) (length S) st0 (l1 ++ [(dj, st)])))).
Proof.
  intro H. destruct (lfit_reach _ _ _ _ _ _ _ H) as [lr [c [st [[tr [HT HL]] ->]]]]. set (ws := match sl_fitted L with Some (w, _, _) => w | None => w0 end) in *. set (st0 := SGState ws ws _ _) in *.
  destruct (trace_run _ _ _ _ _ HT) as [l [R1 [_ R3]]]. rewrite HL in R3.
  destruct (fading_run prm (length S) lr st0 (fun i => get1_vzero _ i) l R1) as [F1 F2]. rewrite R3 in F1.
  exists lr, (sg_self st), c, l. split; [exact R1|]. split; [rewrite F1; reflexivity|]. split; [fold ws; fold st0; rewrite R3; reflexivity|]. exact F2.
Qed.
Lemma latent_momentum_one {X Y} prm (m : lmodel X Y) w0 (warm : bool) S L L' : sg_momentum prm = 1 -> lsg_fit prm m w0 warm S L = Ok L' ->
  exists lr c, sl_fitted L' = Some (match sl_fitted L with Some (w, _, _) => w | None => w0 end, lr, c).
Proof.
  intros HM H. destruct (lfit_reach _ _ _ _ _ _ _ H) as [lr [c [st [[tr [HT <-]] ->]]]]. exists lr, c. cbn [sl_fitted]. do 3 f_equal. set (ws := match sl_fitted L with Some (w, _, _) => w | None => w0 end) in *.
  assert (GEN : forall tr st, sg_w st = ws -> sg_self st = ws -> (forall i, get1 (sg_grad st) i = 0) -> sg_trace prm (length S) lr st tr -> sg_self (last tr st) = ws).
  { clearbody ws. clear - HM. induction tr as [|s tr IH]; intros st E1 E2 E3 H; [exact E2|]. destruct H as [[dj H1] H2]. rewrite last_cons. assert (M := momentum_step _ _ _ _ _ _ H1). apply solve_ok in H1.
    destruct H1 as [_ [L1 [L2 [_ [G2 [G3 _]]]]]].
    assert (Z0 : forall i, get1 (sg_grad s) i = 0) by (intro i; destruct (M i) as [-> _]; rewrite HM, E3; ring).
    assert (W : sg_w s = ws).
    { rewrite <- E1. apply vec_ext. { rewrite G2, vadd_length; rewrite ?vscale_length, ?new_grad_length; auto. } intros i _. destruct (M i) as [_ ->]. rewrite Z0. ring. }
    apply IH; [exact W| |exact Z0|exact H2]. rewrite G3, E2, W. apply expose_same. }
  eapply GEN; [reflexivity|reflexivity| |exact HT]. intro i. apply get1_vzero.
Qed.

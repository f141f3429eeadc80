(** Subgradient learning with momentum. *)
From Coq Require Import ZArith.
From Verif Require Import Model.Subgradient Spec.MomentumSpec Proofs.Arrays Proofs.LossProofs Proofs.CRFProofs Proofs.LearnerProofs Proofs.QPProofs Proofs.SubgradientProofs Proofs.SubgradientProofs2
  Proofs.SubgradientProofs3 Spec.SubgradientRateSpec Proofs.SubgradientRate.

Lemma momentum_step prm n lr dj st st' : solve_subgradient prm n lr dj st = Ok st' -> forall i,
  get1 (sg_grad st') i = (1 - sg_momentum prm) * (get1 dj i - get1 (sg_w st) i / (sg_C prm * ofN n)) + sg_momentum prm * get1 (sg_grad st) i /\
  get1 (sg_w st') i = get1 (sg_w st) i + rate_at prm lr (sg_t st) * get1 (sg_grad st') i.
Proof.
  intros H i. apply solve_ok in H. destruct H as [_ [L1 [L2 [E1 [E2 _]]]]]. assert (LG := new_grad_length prm n dj st L1 L2).
  split.
  - rewrite E1. unfold new_grad. rewrite get1_vadd by (rewrite !vscale_length, vsub_length; rewrite ?vscale_length; congruence). rewrite !get1_vscale, get1_vsub by (rewrite vscale_length; congruence).
    rewrite get1_vscale. unfold Qcdiv. ring.
  - rewrite E1, E2. rewrite get1_vadd by (rewrite vscale_length; congruence). rewrite get1_vscale. reflexivity.
Qed.
Lemma dirs_length C n l : forall st, length (plain_directions C n st l) = length l.
Proof. induction l as [|[dj s] l IH]; intro st; [reflexivity|]. cbn [plain_directions length]. rewrite IH. reflexivity. Qed.
Lemma fading_snoc b vs v : fading_sum b (vs ++ [v]) = b * fading_sum b vs + v.
Proof.
  induction vs as [|a vs IH]; cbn [app fading_sum length]; [cbn [Qcpower]; ring|]. rewrite IH, app_length. cbn [length].
  replace (length vs + 1)%nat with (S (length vs)) by apply eq_sym, Nat.add_1_r. cbn [Qcpower]. ring.
Qed.
Lemma momentum_run prm n lr i : forall l st, sg_run prm n lr st l ->
  get1 (sg_grad (run_end st l)) i = Qcpower (sg_momentum prm) (length l) * get1 (sg_grad st) i +
    (1 - sg_momentum prm) * fading_sum (sg_momentum prm) (map (fun g => get1 g i) (plain_directions (sg_C prm) n st l)).
Proof.
  induction l as [|[dj s] l IH]; intros st H; [cbn [run_end length plain_directions map fading_sum Qcpower]; ring|]. destruct H as [H1 H2].
  cbn [run_end plain_directions map fading_sum length Qcpower]. rewrite (IH s H2), map_length, dirs_length. destruct (momentum_step prm n lr dj st s H1 i) as [E _]. rewrite E.
  assert (S1 := solve_ok prm n lr dj st s H1). destruct S1 as [_ [L1 _]]. rewrite get1_vsub by (rewrite vscale_length; congruence). rewrite get1_vscale. unfold Qcdiv. ring.
Qed.
Lemma run_app prm n lr : forall l1 st l2, sg_run prm n lr st (l1 ++ l2) <-> sg_run prm n lr st l1 /\ sg_run prm n lr (run_end st l1) l2.
Proof.
  induction l1 as [|[dj s] l1 IH]; intros st l2; cbn [app sg_run run_end]; [tauto|]. rewrite IH. tauto.
Qed.
Lemma trace_run prm n lr : forall tr st, sg_trace prm n lr st tr -> exists l, sg_run prm n lr st l /\ map snd l = tr /\ run_end st l = last tr st.
Proof.
  induction tr as [|s tr IH]; intros st H; [exists []; repeat split|]. destruct H as [[dj H1] H2]. destruct (IH s H2) as [l [A [B D]]].
  exists ((dj, s) :: l). split; [split; assumption|]. cbn [map snd run_end]. split; [rewrite B; reflexivity|]. rewrite D, last_cons. reflexivity.
Qed.
Lemma momentum_fit {X Y} prm (bm : bmodel X Y) shuf (warm : bool) S L L' : (forall it S, length (shuf it S) = length S) -> sg_fit prm bm shuf warm S L = Ok L' ->
  exists lr w c l, let st0 := SGState (start_weights (sm_size (bm_s bm)) L) (start_weights (sm_size (bm_s bm)) L) (vzero (sm_size (bm_s bm))) (sl_t L) in
    sg_run prm (length S) lr st0 l /\ L' = SGLearner (sl_t L + length l) (Some (w, lr, c)) /\ w = sg_self (run_end st0 l) /\
    forall l1 dj st l2, l = l1 ++ (dj, st) :: l2 -> forall i,
      get1 (sg_w st) i = get1 (sg_w (run_end st0 l1)) i + rate_at prm lr (sl_t L + length l1) *
        ((1 - sg_momentum prm) * fading_sum (sg_momentum prm) (map (fun g => get1 g i) (plain_directions (sg_C prm) (length S) st0 (l1 ++ [(dj, st)])))).
Proof.
  intros HS H. apply fit_split in H. destruct H as [lr [c0 [st [c [S' [o [_ [B [_ ->]]]]]]]]]. apply loop_reach in B; [|exact HS]. destruct B as [[tr [HT HL]] _].
  set (st0 := SGState _ _ _ _). change (fit_start bm L) with st0 in *. destruct (trace_run _ _ _ _ _ HT) as [l [R1 [R2 R3]]]. rewrite HL in R3.
  assert (TT : forall l st, sg_run prm (length S) lr st l -> sg_t (run_end st l) = (sg_t st + length l)%nat).
  { clear. induction l as [|[dj s] l IH]; intros st H; cbn [run_end length]; [lia|]. destruct H as [H1 H2]. rewrite (IH s H2). apply solve_ok in H1. destruct H1 as [_ [_ [_ [_ [_ [_ ->]]]]]]. lia. }
  exists lr, (sg_self st), (c ++ [o]), l. split; [exact R1|]. split; [rewrite <- R3, (TT l st0 R1); reflexivity|]. split; [rewrite R3; reflexivity|].
  intros l1 dj s l2 E i. rewrite E in R1. apply run_app in R1. destruct R1 as [A1 [A2 _]].
  assert (A3 : sg_run prm (length S) lr st0 (l1 ++ [(dj, s)])) by (apply run_app; split; [exact A1|split; [exact A2|exact I]]).
  destruct (momentum_step _ _ _ _ _ _ A2 i) as [_ ->]. rewrite (TT l1 st0 A1). change (sg_t st0) with (sl_t L). f_equal. f_equal.
  assert (M := momentum_run prm (length S) lr i _ _ A3).
  assert (RE : run_end st0 (l1 ++ [(dj, s)]) = s). { clear. generalize st0. induction l1 as [|[a b] l1 IH]; intro x; [reflexivity|]. cbn [app run_end]. apply IH. }
  rewrite RE in M. rewrite M. change (sg_grad st0) with (vzero (sm_size (bm_s bm))). rewrite get1_vzero. ring.
Qed.
(** steps get no longer *)
Lemma normsq_mix m a b G : 0 <= m -> m <= 1 -> length a = length b -> normsq a <= G -> normsq b <= G -> normsq (vadd (vscale (1 - m) a) (vscale m b)) <= G.
Proof.
  intros H0 H1 HL HA HB. assert (NN := normsq_nonneg (vsub a b)). assert (K0 : 0 <= 1 - m) by qclra.
  assert (E : normsq (vadd (vscale (1 - m) a) (vscale m b)) = (1 - m) * normsq a + m * normsq b - m * (1 - m) * normsq (vsub a b)).
  { unfold normsq. rewrite !dot_vsub_l, !dot_vsub_r by congruence. rewrite dot_vadd_l by (rewrite !vscale_length; congruence). rewrite !dot_vadd_r by (rewrite !vscale_length; congruence).
    rewrite !dot_vscale_l, !dot_vscale_r. rewrite (dot_comm b a). ring. }
  rewrite E. assert (P := Qcmult_nonneg _ _ (Qcmult_nonneg _ _ H0 K0) NN). apply (Qcmult_le_compat_r _ _ (1 - m)) in HA; [|exact K0]. apply (Qcmult_le_compat_r _ _ m) in HB; [|exact H0].
  rewrite (Qcmult_comm (1 - m)), (Qcmult_comm m (normsq b)). assert (GE : G * (1 - m) + G * m = G) by ring.
  set (x := normsq a * (1 - m)) in *. set (y := normsq b * m) in *. set (z := m * (1 - m) * normsq (vsub a b)) in *. set (p := G * (1 - m)) in *. set (q := G * m) in *. clearbody x y z p q. clear - HA HB P GE. qclra.
Qed.
Lemma momentum_bound prm n lr G : 0 <= sg_momentum prm -> sg_momentum prm <= 1 -> forall l st, sg_run prm n lr st l -> normsq (sg_grad st) <= G ->
  Forall (fun g => normsq g <= G) (plain_directions (sg_C prm) n st l) -> normsq (sg_grad (run_end st l)) <= G.
Proof.
  intros H0 H1. induction l as [|[dj s] l IH]; intros st HR HG HF; [exact HG|]. destruct HR as [R1 R2]. cbn [plain_directions] in HF. inversion_clear HF as [|? ? F1 F2]. cbn [run_end].
  apply (IH s R2); [|exact F2]. apply solve_ok in R1. destruct R1 as [_ [L1 [L2 [E1 _]]]]. rewrite E1. unfold new_grad. apply normsq_mix; try assumption. rewrite vsub_length; rewrite ?vscale_length; congruence.
Qed.
(** momentum 1 *)
Lemma expose_same a t w : sg_expose a t w w = w.
Proof.
  assert (K : forall r, vadd (vscale (1 - r) w) (vscale r w) = w).
  { intro r. apply vec_ext; [rewrite vadd_length; rewrite !vscale_length; reflexivity|]. intros i _. rewrite get1_vadd by (rewrite !vscale_length; reflexivity). rewrite !get1_vscale. ring. }
  destruct a; [reflexivity|apply K|apply K].
Qed.
Lemma momentum_one {X Y} prm (bm : bmodel X Y) shuf (warm : bool) S L L' : sg_momentum prm = 1 -> (forall it S, length (shuf it S) = length S) -> sg_fit prm bm shuf warm S L = Ok L' ->
  exists lr c, sl_fitted L' = Some (start_weights (sm_size (bm_s bm)) L, lr, c).
Proof.
  intros HM HS H. apply fit_split in H. destruct H as [lr [c0 [st [c [S' [o [_ [B [_ ->]]]]]]]]]. apply loop_reach in B; [|exact HS]. destruct B as [[tr [HT <-]] _].
  exists lr, (c ++ [o]). cbn [sl_fitted]. do 3 f_equal. set (w0 := start_weights (sm_size (bm_s bm)) L).
  assert (GEN : forall tr st, sg_w st = w0 -> sg_self st = w0 -> (forall i, get1 (sg_grad st) i = 0) -> sg_trace prm (length S) lr st tr -> sg_self (last tr st) = w0).
  { clear HT tr. clear - HM. induction tr as [|s tr IH]; intros st E1 E2 E3 H; [exact E2|]. destruct H as [[dj H1] H2]. rewrite last_cons. assert (M := momentum_step _ _ _ _ _ _ H1). apply solve_ok in H1.
    destruct H1 as [_ [L1 [L2 [_ [G2 [G3 _]]]]]].
    assert (Z0 : forall i, get1 (sg_grad s) i = 0) by (intro i; destruct (M i) as [-> _]; rewrite HM, E3; ring).
    assert (W : sg_w s = w0).
    { rewrite <- E1. apply vec_ext. { rewrite G2, vadd_length; rewrite ?vscale_length, ?new_grad_length; auto. } intros i _. destruct (M i) as [_ ->]. rewrite Z0. ring. }
    apply IH; [exact W| |exact Z0|exact H2]. rewrite G3, E2, W. apply expose_same. }
  apply (GEN tr (fit_start bm L)); [reflexivity|reflexivity| |exact HT]. intro i. apply get1_vzero.
Qed.

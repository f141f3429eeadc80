(** SubgradientLatentSSVM: batches of the parallel mode. *)
From Coq Require Import ZArith.
From Verif Require Import Model.LatentGraph Model.LatentLearner Model.SubgradientLatent Spec.GraphSpec Spec.SolverSpec
  Proofs.Arrays Proofs.EnergyProofs Proofs.GraphCRFProofs Proofs.LossProofs Proofs.CRFProofs Proofs.LearnerProofs Proofs.OneSlackProofs Proofs.OneSlackProofs2
  Proofs.SubgradientProofs Proofs.SubgradientProofs2 Proofs.SubgradientProofs3 Proofs.SubgradientProofs4
  Proofs.LatentProofs Proofs.LatentProofs2 Proofs.LatentProofs3 Proofs.LatentProofs4 Spec.OneSlackSpec Spec.SubgradientSpec Spec.LatentSpec.

Section Batch.
Context {X Y : Type}.
Variables (T : task X Y) (E : X -> Y -> Y -> Prop) (d : nat) (m : lmodel X Y).
Hypothesis HR : sm_rescale (lm_s m) = false.

Lemma latent_gather w : length w = d -> forall B acc pos obj, length acc = d ->
  Forall (latent_exact m T E d w) B -> Forall (right_loss m T E) B ->
  exists cs hs Yh vs, mapM (fun p => find_constraint_latent m (fst p) (snd p) w) B = Ok cs /\
    Forall2 (fun p h => best_completion T E w (fst p) (snd p) h) B hs /\
    good T d (map fst B) hs /\ OneSlackSpec.labelling T (map fst B) Yh /\
    hinges T w (combine (map fst B) hs) vs /\ margins T w (map fst B) hs Yh = vs /\
    lsg_gather cs acc pos obj =
      Ok (vadd acc (vsub (feat_sum T d (map fst B) hs) (feat_sum T d (map fst B) Yh)), (pos + length (filter (Qcltb 0) vs))%nat, obj + lsum vs).
Proof.
  intro Hw. induction B as [|p B IH]; intros acc pos obj HA HX HRL.
  - exists [], [], [], []. cbn [mapM map lsg_gather]. split; [reflexivity|]. split; [constructor|]. split; [split; [reflexivity|intros q []]|]. split; [constructor|].
    split; [constructor|]. split; [reflexivity|]. cbn [filter length lsum fold_right]. unfold lsum. cbn [fold_right]. rewrite Nat.add_0_r. unfold feat_sum. cbn [combine map fold_right].
    replace (vsub (vzero d) (vzero d)) with (vzero d); [rewrite vadd_zero_r by exact HA; do 2 f_equal; ring|].
    assert (L := vzero_length d). apply vec_ext. { rewrite vsub_length; congruence. } intros i _. rewrite get1_vsub, get1_vzero by congruence. ring.
  - apply Forall_cons_iff in HX. destruct HX as [X1 X2]. apply Forall_cons_iff in HRL. destruct HRL as [R1 R2].
    destruct (fcl_value T E d m HR p w Hw X1) as [h [hh [v [F1 [F2 [F3 [F4 [F5 [F6 [F7 [LD F8]]]]]]]]]]].
    specialize (F8 _ (R1 h hh (proj1 F2) F4)).
    assert (EV : Qcmax (v + (t_loss T h hh - t_loss T h hh)) 0 = v).
    { replace (v + (t_loss T h hh - t_loss T h hh)) with v by ring. unfold Qcmax. destruct (Qcleb_spec v 0) as [Q|Q]; [apply Qcle_antisym; assumption|reflexivity]. }
    rewrite EV in F8. set (dl := vsub (t_feat T (fst p) h) (t_feat T (fst p) hh)) in *.
    assert (LA : length (vadd acc dl) = d) by (rewrite vadd_length; congruence).
    destruct (IH (vadd acc dl) (if Qcltb 0 v then Datatypes.S pos else pos) (obj + v) LA X2 R2) as [cs [hs [Yh [vs [A1 [A2 [A3 [A4 [A5 [A6 A7]]]]]]]]]].
    destruct X1 as [[_ [HI _]] _]. specialize (HI h (proj1 F2)). destruct HI as [I1 [I2 I3]].
    assert (LL : forall y, t_label T (fst p) y -> length (t_feat T (fst p) y) = d) by (intros y Hy; apply I3; exact Hy).
    eexists. exists (h :: hs), (hh :: Yh), (v :: vs). cbn [mapM map]. rewrite F8. cbn [bind]. rewrite A1. cbn [bind]. split; [reflexivity|].
    split; [constructor; assumption|]. split.
    { destruct A3 as [G1 G2]. split; [cbn [length]; congruence|]. intros q [<-|Hq]; [|apply G2; exact Hq]. cbn [fst snd]. split; [exact I1|]. split; [exact I2|exact LL]. }
    split; [constructor; assumption|]. split; [cbn [combine]; constructor; assumption|]. split.
    { unfold margins in *. cbn [combine map fst snd]. f_equal; [|exact A6]. rewrite margin_sub by (rewrite !LL; auto). symmetry. exact F7. }
    cbn [lsg_gather]. unfold np_vadd. rewrite HA, LD, Nat.eqb_refl. cbn [bind]. rewrite A7. do 2 f_equal; [f_equal|].
    + assert (LF1 := feat_sum_length T d _ _ _ A3 (good_label _ _ _ _ A3)). assert (LF2 := feat_sum_length T d _ _ _ A3 A4).
      unfold feat_sum at 3 4. cbn [combine map fold_right fst snd]. fold (feat_sum T d (map fst B) hs). fold (feat_sum T d (map fst B) Yh).
      rewrite vsub_vadd by (rewrite ?LF1, ?LF2, ?LL; auto). fold dl. set (b := vsub (feat_sum T d (map fst B) hs) (feat_sum T d (map fst B) Yh)).
      assert (LB : length b = d) by (unfold b; rewrite vsub_length; congruence). assert (L2 : length (vadd dl b) = d) by (rewrite vadd_length; congruence).
      apply vec_ext. { rewrite !vadd_length; congruence. } intros i _. rewrite !get1_vadd by congruence. ring.
    + cbn [filter]. destruct (Qcltb 0 v); cbn [length]; lia.
    + unfold lsum. cbn [fold_right]. ring.
Qed.

Lemma latent_par_step prm n lr B Bs st pos obj : 0 < sg_C prm -> (0 < n)%nat -> B <> [] -> sm_size (lm_s m) = d ->
  Forall (latent_exact m T E d (sg_w st)) B -> Forall (right_loss m T E) B -> can_step prm n (sg_t st) -> shaped d st -> sg_momentum prm = 0 ->
  exists hs vs st' g, Forall2 (fun p h => best_completion T E (sg_w st) (fst p) (snd p) h) B hs /\ latent_hinges T E (sg_w st) B vs /\
    shaped d st' /\ step_against prm n lr g st st' /\
    strong_subgradient T d (sg_C prm * ofN n / ofN (length B)) (combine (map fst B) hs) (sg_w st) g /\
    lsg_par prm m n lr (B :: Bs) st pos obj = lsg_par prm m n lr Bs st' (pos + length (filter (Qcltb 0) vs)) (obj + lsum vs).
Proof.
  intros HC Hn HB Hd HX HRL HS SH HM. assert (SH' := SH). destruct SH' as [S1 [S2 S3]].
  destruct (latent_gather (sg_w st) S1 B (vzero d) pos obj (vzero_length d) HX HRL) as [cs [hs [Yh [vs [A1 [A2 [A3 [A4 [A5 [A6 A7]]]]]]]]]].
  assert (L1 := feat_sum_length T d _ _ _ A3 (good_label _ _ _ _ A3)). assert (L2 := feat_sum_length T d _ _ _ A3 A4).
  set (dl := vsub (feat_sum T d (map fst B) hs) (feat_sum T d (map fst B) Yh)) in *. assert (LD : length dl = d) by (unfold dl; rewrite vsub_length; congruence).
  rewrite vadd_vzero_l in A7 by exact LD. assert (HK : (0 < length B)%nat) by (destruct B; [congruence|cbn; lia]).
  destruct (solve_total prm n lr (vscale (/ ofN (length B)) dl) st HS) as [st' EST]. { rewrite vscale_length. congruence. } { congruence. }
  exists hs, vs, st', (vsub (sg_w st) (vscale (sg_C prm * ofN n / ofN (length B)) dl)). split; [exact A2|]. split.
  { clear - A2 A5. revert hs vs A2 A5. induction B as [|p B IH]; intros hs vs A2 A5; inversion A2; subst; cbn [map combine] in A5; inversion A5; subst; constructor; auto.
    - exists y. split; assumption.
    - eapply IH; eassumption. }
  split; [apply (solve_shaped prm n lr (vscale (/ ofN (length B)) dl) d st st' SH EST)|]. split; [|split].
  - assert (D := step_direction prm n lr _ st st' HM EST).
    replace (vscale (sg_C prm * ofN n / ofN (length B)) dl) with (vscale (sg_C prm * ofN n) (vscale (/ ofN (length B)) dl)); [exact D|].
    apply vec_ext. { rewrite !vscale_length. reflexivity. } intros i _. rewrite !get1_vscale. unfold Qcdiv. ring.
  - apply strong_core; auto.
    + apply Qcmult_nonneg; [|apply Qclt_le_weak, Qcinv_pos, ofN_pos; exact HK]. apply Qcmult_nonneg; [apply Qclt_le_weak; exact HC|apply ofN_nonneg].
    + rewrite A6. exact A5.
  - cbn [lsg_par]. rewrite A1. cbn [bind]. rewrite Hd, A7. cbn [bind]. destruct (Nat.eqb_spec (length B) 0); [lia|]. cbn [negb ensure bind]. rewrite EST. reflexivity.
Qed.
End Batch.

(** Inexact inference: the structured perceptron, predictions, and graph models. *)
From Coq Require Import ZArith.
From Verif Require Import Model.Instances Spec.TaskInstances Spec.SolverSpec Spec.GraphSpec Proofs.Arrays Proofs.EnergyProofs Proofs.GraphCRFProofs
  Proofs.LossProofs Proofs.CRFProofs Proofs.LearnerProofs Proofs.SubgradientProofs Proofs.InstanceProofs Proofs.InferenceProofs Model.Inference Spec.InferenceSpec Spec.NearSpec Proofs.Near.
From Verif Require Import Proofs.PerceptronProofs2 Proofs.PerceptronProofs3 Proofs.PerceptronProofs4.

Section Bound.
Context {X Y : Type} (m : smodel X Y) (T : task X Y) (d : nat) (S : list (X * Y)) (eps : Qc).
Hypothesis HC : computes m T d S.
Hypothesis HX : infers_near eps m T d S.

Lemma near_visit lr w0 w v V : In (v_sample v) S -> length w = d -> presents m T false lr w0 w (v :: V) ->
  length (v_diff T v) = d /\ length (v_after v) = d /\ t_label T (fst (v_sample v)) (v_pred v) /\ dot w (v_diff T v) <= eps.
Proof.
  intros Hv Hw [E [A1 [A2 _]]].
  destruct (HX _ _ Hv Hw) as [y' [B1 [B2 B3]]]. rewrite B1 in E. injection E as ->.
  destruct (HC _ Hv) as [C1 [_ C3]]. destruct (C3 _ C1) as [D1 _]. destruct (C3 _ B2) as [E1 [E2 _]].
  assert (LD : length (v_diff T v) = d) by (unfold v_diff; rewrite vsub_length; congruence).
  split; [exact LD|]. split.
  - destruct (Qceqb_spec (v_loss T v) 0) as [Z|Z]; [rewrite (A1 Z); exact Hw|]. rewrite (A2 Z). rewrite vadd_length; [exact Hw|]. rewrite vscale_length. congruence.
  - split; [exact B2|]. unfold v_diff. rewrite dot_vsub_r by congruence. pose proof (B3 _ C1). qclra.
Qed.

Variables (u : list Qc) (g R2 : Qc).
Hypothesis HU : length u = d.
Hypothesis HS : Forall (separates T u g) S.
Hypothesis HR : Forall (wrong_within T R2) S.

Lemma near_growth w0 : forall V w, (forall v, In v V -> In (v_sample v) S) -> length w = d -> presents m T false 1 w0 w V ->
  length (finish (w, V)) = d /\ dot u w + ofN (mistakes T V) * g <= dot u (finish (w, V)) /\
  normsq (finish (w, V)) <= normsq w + ofN (mistakes T V) * (R2 + (1 + 1) * eps).
Proof.
  induction V as [|v V IH]; intros w HV Hw P.
  - unfold finish, mistakes. cbn [snd fst map last filter length]. rewrite ofN_0. split; [exact Hw|]. split.
    + replace (dot u w + 0 * g) with (dot u w) by ring. apply Qcle_refl.
    + replace (normsq w + 0 * (R2 + (1 + 1) * eps)) with (normsq w) by ring. apply Qcle_refl.
  - assert (Hv : In (v_sample v) S) by (apply HV; left; reflexivity).
    destruct (near_visit _ _ _ _ _ Hv Hw P) as [F1 [F2 [F3 F5]]].
    destruct P as [_ [P2 [P3 P4]]]. destruct (IH (v_after v) (fun v' H => HV v' (or_intror H)) F2 P4) as [I1 [I2 I3]].
    assert (FE : finish (w, v :: V) = finish (v_after v, V)) by (unfold finish; cbn [fst snd map]; apply last_cons).
    assert (MC : mistakes T (v :: V) = ((if Qceqb (v_loss T v) 0 then 0 else 1) + mistakes T V)%nat) by (unfold mistakes; cbn [filter]; destruct (Qceqb (v_loss T v) 0); reflexivity).
    rewrite FE, MC. destruct (Qceqb_spec (v_loss T v) 0) as [Z|Z].
    + rewrite (P2 Z) in I1, I2, I3 |- *. cbn [Nat.add]. auto.
    + pose proof (proj1 (Forall_forall _ _) HS _ Hv _ F3 Z) as S1. pose proof (proj1 (Forall_forall _ _) HR _ Hv _ F3 Z) as S2.
      change (g <= dot u (v_diff T v)) in S1. change (normsq (v_diff T v) <= R2) in S2.
      set (fn := finish (v_after v, V)) in *. clearbody fn. rewrite (P3 Z) in I2, I3. set (k := mistakes T V) in *. replace (1 + k)%nat with (Datatypes.S k) by lia. rewrite (ofN_S k).
      rewrite dot_vadd_r, dot_vscale_r in I2 by (rewrite vscale_length; congruence).
      rewrite norm_add, norm_scale, dot_vscale_r in I3 by (rewrite vscale_length; congruence).
      split; [exact I1|]. split.
      * replace (dot u w + (1 + ofN k) * g) with (dot u w + ofN k * g + g) by ring. rewrite Qcmult_1_l in I2. clear -I2 S1. revert I2 S1. qatoms. intros. qclra.
      * replace (normsq w + (1 + ofN k) * (R2 + (1 + 1) * eps)) with (normsq w + ofN k * (R2 + (1 + 1) * eps) + R2 + eps + eps) by ring.
        replace ((1 + 1) * (1 * dot w (v_diff T v))) with (dot w (v_diff T v) + dot w (v_diff T v)) in I3 by ring.
        replace (1 * 1 * normsq (v_diff T v)) with (normsq (v_diff T v)) in I3 by ring.
        set (q := ofN k * (R2 + (1 + 1) * eps)) in *. clearbody q. clear -I3 S2 F5. qclra.
Qed.
Lemma near_run prm : pc_decay prm = 0%Z -> pc_batch prm = false -> forall Es it w, length w = d -> epochs prm m T S it w Es ->
  length (finish_all w Es) = d /\ dot u w + ofN (all_mistakes T Es) * g <= dot u (finish_all w Es) /\
  normsq (finish_all w Es) <= normsq w + ofN (all_mistakes T Es) * (R2 + (1 + 1) * eps).
Proof.
  intros HD HB. induction Es as [|e Es IH]; intros it w Hw HE.
  - unfold finish_all. cbn [map last]. change (all_mistakes T []) with 0%nat. rewrite ofN_0. split; [exact Hw|]. split.
    + replace (dot u w + 0 * g) with (dot u w) by ring. apply Qcle_refl.
    + replace (normsq w + 0 * (R2 + (1 + 1) * eps)) with (normsq w) by ring. apply Qcle_refl.
  - destruct HE as [E1 [E2 [E3 E4]]]. rewrite HB, (lr_one prm it HD) in E3.
    assert (HV : forall v, In v (snd e) -> In (v_sample v) S) by (intros v Hv; rewrite <- E2; apply in_map; exact Hv).
    destruct (near_growth w (snd e) w HV Hw E3) as [G1 [G2 G3]].
    replace (finish (w, snd e)) with (finish e) in G1, G2, G3 by (destruct e as [e1 e2]; cbn [fst] in E1; subst e1; reflexivity).
    destruct (IH _ _ G1 E4) as [I1 [I2 I3]].
    assert (FE : finish_all w (e :: Es) = finish_all (finish e) Es) by (unfold finish_all; cbn [map]; apply last_cons).
    rewrite FE. replace (all_mistakes T (e :: Es)) with (mistakes T (snd e) + all_mistakes T Es)%nat by reflexivity. rewrite ofN_plus.
    split; [exact I1|]. split.
    + rewrite Qcmult_plus_distr_l. revert G2 I2. qatoms. intros. qclra.
    + rewrite Qcmult_plus_distr_l. revert G3 I3. generalize (R2 + (1 + 1) * eps). intros q. qatoms. intros. qclra.
Qed.
Lemma near_mistakes prm Es : pc_decay prm = 0%Z -> pc_batch prm = false -> 0 < g -> epochs prm m T S 0 (vzero d) Es ->
  0 <= R2 + (1 + 1) * eps -> ofN (all_mistakes T Es) * (g * g) <= (R2 + (1 + 1) * eps) * normsq u.
Proof.
  intros HD HB HG HE HP. destruct (near_run prm HD HB Es 0%nat (vzero d) (vzero_length d) HE) as [L [A B]].
  rewrite dot_vzero_r in A. unfold normsq at 2 in B. rewrite dot_vzero_r in B.
  set (M := ofN (all_mistakes T Es)) in *. assert (M0 : 0 <= M) by apply ofN_nonneg. set (f := finish_all (vzero d) Es) in *.
  assert (CS := cauchy_schwarz u f). specialize (CS ltac:(congruence)).
  set (K := R2 + (1 + 1) * eps) in *. clearbody K. assert (A' : M * g <= dot u f) by (rewrite Qcplus_0_l in A; exact A).
  assert (B' : normsq f <= M * K) by (rewrite Qcplus_0_l in B; exact B).
  assert (MG : 0 <= M * g) by (apply Qcmult_nonneg; auto using Qclt_le_weak).
  assert (SQ : M * g * (M * g) <= dot u f * dot u f).
  { apply Qcle_trans with (M * g * dot u f).
    - rewrite (Qcmult_comm (M * g) (dot u f)). apply Qcmult_le_compat_r; auto.
    - apply Qcmult_le_compat_r; auto. eapply Qcle_trans; [exact MG|exact A']. }
  pose proof (normsq_nonneg u) as NU.
  assert (B2 : M * g * (M * g) <= normsq u * (M * K)).
  { eapply Qcle_trans; [exact SQ|]. eapply Qcle_trans; [exact CS|]. rewrite (Qcmult_comm (normsq u) (normsq f)), (Qcmult_comm (normsq u) (M * K)). apply Qcmult_le_compat_r; auto. }
  destruct (Qceqb_spec M 0) as [Z|Z].
  - rewrite Z. replace (0 * (g * g)) with 0 by ring. apply Qcmult_nonneg; auto.
  - assert (MP : 0 < M) by (destruct (Qcle_lt_or_eq _ _ M0) as [|E]; [assumption|symmetry in E; contradiction]).
    replace (M * g * (M * g)) with (M * (g * g) * M) in B2 by ring. replace (normsq u * (M * K)) with (K * normsq u * M) in B2 by ring.
    apply Qcmult_lt_0_le_reg_r in B2; assumption.
Qed.
End Bound.

Lemma near_infers {X Y} eps (m : smodel X Y) T d S : infers_near eps m T d S -> infers m T d S.
Proof. intros H p w yh Hp Hw E. destruct (H p w Hp Hw) as [y' [A [B _]]]. rewrite A in E. injection E as <-. exact B. Qed.
Lemma near_answers {X Y} eps (m : smodel X Y) T d S : infers_near eps m T d S -> answers m T d S.
Proof. intros H p w Hp Hw. destruct (H p w Hp Hw) as [y [H1 [H2 _]]]. exists y. auto. Qed.
Lemma near_perceptron {X Y} eps (m : smodel X Y) (T : task X Y) d S prm mloss old mls u g R2 : computes m T d S -> infers_near eps m T d S ->
  sm_size m = d -> pc_decay prm = 0%Z -> pc_batch prm = false -> average_ok prm -> mapM (fun p => mloss (snd p)) S = Ok mls ->
  length u = d -> 0 < g -> 0 <= R2 -> 0 <= eps -> Forall (separates T u g) S -> Forall (wrong_within T R2) S ->
  exists L Es, pc_fit prm m mloss old S = (L, None) /\ epochs prm m T S 0 (vzero d) Es /\ pl_curve L = Some (map (entry T (lsum mls)) Es) /\
    ofN (all_mistakes T Es) * (g * g) <= (R2 + (1 + 1) * eps) * normsq u.
Proof.
  intros HC HX H1 HD HB H3 H4 HU HG HR0 HE HS HR.
  destruct (fit_answers m T d S HC (near_infers _ _ _ _ _ HX) prm mloss old mls (near_answers _ _ _ _ _ HX) H1
              (or_introl (Z.eq_le_incl _ _ (eq_sym HD))) H3 H4) as [L [Es [B1 [B2 [_ [B4 _]]]]]].
  exists L, Es. split; auto. split; auto. split; auto.
  apply (near_mistakes m T d S eps HC HX u g R2 HU HS HR prm Es HD HB HG B2). replace ((1 + 1) * eps) with (eps + eps) by ring. qclra.
Qed.
Lemma near_converges {X Y} eps (m : smodel X Y) (T : task X Y) d S prm mloss old mls u g R2 : computes m T d S -> infers_near eps m T d S ->
  sm_size m = d -> pc_decay prm = 0%Z -> pc_batch prm = false -> average_ok prm -> mapM (fun p => mloss (snd p)) S = Ok mls -> lsum mls <> 0 ->
  length u = d -> 0 < g -> 0 <= R2 -> 0 <= eps -> Forall (separates T u g) S -> Forall (wrong_within T R2) S ->
  (R2 + (1 + 1) * eps) * normsq u < ofN (pc_max_iter prm) * (g * g) ->
  exists L c, pc_fit prm m mloss old S = (L, None) /\ pl_curve L = Some c /\ c <> [] /\ last c None = Some 0 /\
    ofN (length c - 1) * (g * g) <= (R2 + (1 + 1) * eps) * normsq u /\
    (pc_avg prm = NoAverage -> fits m T S (pl_w L)).
Proof.
  intros HC HX H1 HD HO H3 H4 HM HU HG HR0 HE HS HR HB. pose proof (near_infers _ m T d S HX) as HI. pose proof (near_answers _ _ _ _ _ HX) as HA.
  assert (H2 : rates_ok prm) by (left; lia).
  destruct (fit_answers m T d S HC HI prm mloss old mls HA H1 H2 H3 H4) as [L [Es [B1 [B2 [B3 [B4 [B5 [B6 B7]]]]]]]].
  assert (HP : 0 <= R2 + (1 + 1) * eps) by (replace ((1 + 1) * eps) with (eps + eps) by ring; qclra).
  pose proof (near_mistakes m T d S eps HC HX u g R2 HU HS HR prm Es HD HO HG B2 HP) as MB.
  set (B := (R2 + (1 + 1) * eps) * normsq u) in *. clearbody B.
  assert (GG : 0 <= g * g) by (apply Qclt_le_weak, Qcmult_pos; assumption).
  destruct (last_snoc_or Es) as [->|[Es' [e ->]]].
  - exfalso. destruct B7 as [B7|[Es' [e [B7 _]]]]; [|destruct Es'; discriminate B7]. cbn [length] in B7. rewrite <- B7, ofN_0 in HB.
    cbn [all_mistakes map list_sum fold_right] in MB. change (all_mistakes T []) with 0%nat in MB. rewrite ofN_0 in MB.
    apply (Qclt_not_le _ _ HB). exact MB.
  - rewrite removelast_last in B6. pose proof (all_mistakes_ge T _ _ HM B6) as G1.
    assert (Z : zero_entry (entry T (lsum mls) e)).
    { destruct B7 as [B7|[Es1 [e1 [B7 Z]]]]; [|apply app_inj_tail in B7; destruct B7 as [_ ->]; exact Z].
      destruct (zero_entry_dec T (lsum mls) e) as [Z|Z]; [exact Z|]. exfalso.
      assert (G2 : (length (Es' ++ [e]) <= all_mistakes T (Es' ++ [e]))%nat).
      { apply (all_mistakes_ge T (lsum mls)); [exact HM|]. apply Forall_app. split; [exact B6|]. constructor; [exact Z|constructor]. }
      rewrite B7 in G2. apply (Qclt_not_le _ _ HB). apply Qcle_trans with (2 := MB). apply Qcmult_le_compat_r; [apply ofN_le; exact G2|exact GG]. }
    assert (LC : last (map (entry T (lsum mls)) (Es' ++ [e])) None = Some 0).
    { rewrite map_app, last_app. cbn [map last]. destruct (entry T (lsum mls) e) as [q|]; cbn [zero_entry] in Z; [rewrite Z; reflexivity|contradiction]. }
    exists L, (map (entry T (lsum mls)) (Es' ++ [e])).
    split; [exact B1|]. split; [exact B4|]. split; [rewrite map_app; destruct (map _ Es'); discriminate|]. split; [exact LC|]. split.
    + rewrite map_length, app_length. cbn [length]. replace (length Es' + 1 - 1)%nat with (length Es') by lia.
      apply Qcle_trans with (2 := MB). apply Qcmult_le_compat_r; [|exact GG]. apply ofN_le. rewrite all_mistakes_app. lia.
    + intros EA. exact (early_stop m T d S HC HI prm mloss old mls L None _ H1 H2 H3 H4 B1 B4 LC EA).
Qed.
(** predictions *)
Lemma near_exact_infers {X Y} (m : smodel X Y) T d S : infers_exactly m T d S <-> infers_near 0 m T d S.
Proof.
  split; intros H p w Hp Hw; destruct (H p w Hp Hw) as [yp [A [B C]]]; exists yp; split; auto; split; auto; intros y' Hy'; specialize (C y' Hy'); qclra.
Qed.
Lemma near_prediction {X Y} eps (m : smodel X Y) T d S p w h : infers_near eps m T d S -> In p S -> length w = d -> t_label T (fst p) (snd p) ->
  is_hinge T w (fst p) (snd p) h -> exists yp, sm_inference m (fst p) w = Ok yp /\ t_label T (fst p) yp /\ t_loss T (snd p) yp <= h + eps.
Proof.
  intros H Hp Hw HL [_ HH]. destruct (H p w Hp Hw) as [yp [A [B C]]]. exists yp. split; auto. split; auto.
  specialize (C _ HL). specialize (HH yp B). unfold margin in HH. qclra.
Qed.
Lemma near_fits {X Y} eps (m : smodel X Y) T d S w g : computes m T d S -> infers_near eps m T d S -> length w = d -> eps < g -> Forall (separates T w g) S -> fits m T S w.
Proof.
  intros HC H Hw HG HS p Hp. destruct (H p w Hp Hw) as [yp [A [B C]]]. exists yp. split; auto.
  destruct (HC p Hp) as [L [_ F]]. destruct (F _ L) as [F1 _]. destruct (F _ B) as [F2 _].
  destruct (Qceqb_spec (t_loss T (snd p) yp) 0) as [Z|Z]; [exact Z|exfalso].
  pose proof (proj1 (Forall_forall _ _) HS p Hp yp B Z) as G. rewrite dot_vsub_r in G by congruence. specialize (C _ L). qclra.
Qed.

(** graph models *)
Section Graph.
Variables (eps : Qc) (solve : solver) (g : graph_crf) (cw : list Qc) (x : graph_x) (w : list Qc).
Hypothesis Hx : valid_x g x.
Hypothesis Hw : length w = g_size g.
Hypothesis Hk : (0 < g_states g)%nat.
Notation n := (mrows (gx_features x)). Notation k := (g_states g). Notation es := (gx_edges x).
Definition answers_near U m := exists y, solve U (Pw2 m) es = Ok y /\ Energy.labelling n k y /\
  forall y', Energy.labelling n k y' -> score n es (mget U) (fun _ => mget m) (lab y') <= score n es (mget U) (fun _ => mget m) (lab y) + eps.

Lemma g_near_inference :
  (forall U m, mat_ok U -> mat_ok m -> mrows U = n -> mcols U = k -> mrows m = k -> mcols m = k ->
     (forall i s, (i < n)%nat -> (s < k)%nat -> mget U i s = unary_score (g_features g) w (mget (gx_features x) i) s) ->
     (forall s t, (s < k)%nat -> (t < k)%nat -> mget m s t = pair_score k (g_features g) (g_directed g) w s t) -> answers_near U m) ->
  exists yp, g_inference solve g x w = Ok yp /\ Energy.labelling n k yp /\
    forall y', Energy.labelling n k y' -> dot w (t_feat (g_task g cw) x y') <= dot w (t_feat (g_task g cw) x yp) + eps.
Proof.
  intros Hs. destruct (g_potentials_ok g x w Hx Hw) as [U [P [E [OU [RU [CU [OP [RP [CP [GU GP]]]]]]]]]].
  destruct (Hs U P) as [y [Ey [Hy Hm]]]; auto. exists y. unfold g_inference. rewrite E. cbn [bind fst snd]. split; auto. split; auto.
  intros y' Hy'. assert (S1 : dot w (t_feat (g_task g cw) x y) = g_score g x w y) by exact (g_feat_score g cw x y w Hx Hw Hy). assert (S2 : dot w (t_feat (g_task g cw) x y') = g_score g x w y') by exact (g_feat_score g cw x y' w Hx Hw Hy'). rewrite S1, S2.
  rewrite <- (g_score_potentials g x w U P y), <- (g_score_potentials g x w U P y') by assumption. apply Hm. exact Hy'.
Qed.
Lemma g_near_laug y : length cw = k -> Energy.labelling n k y ->
  (forall U m, mat_ok U -> mat_ok m -> mrows U = n -> mcols U = k -> mrows m = k -> mcols m = k ->
     (forall i s, (i < n)%nat -> (s < k)%nat -> mget U i s = unary_score (g_features g) w (mget (gx_features x) i) s + (if (lab y i =? s)%nat then 0 else get1 cw (lab y i))) ->
     (forall s t, (s < k)%nat -> (t < k)%nat -> mget m s t = pair_score k (g_features g) (g_directed g) w s t) -> answers_near U m) ->
  exists yh, g_loss_augmented_inference solve g cw x y w = Ok yh /\ near_worst (g_task g cw) eps w x y yh.
Proof.
  intros Hc Hy Hs. destruct (g_potentials_ok g x w Hx Hw) as [U [P [E [OU [RU [CU [OP [RP [CP [GU GP]]]]]]]]]].
  destruct (loss_augment_ok U y cw _ _ RU CU Hc Hy) as [U' [EU' [OU' [RU' [CU' GU']]]]].
  destruct (Hs U' P) as [yh [Ey [Hyh Hm]]]; auto. { intros i s Hi Hsk. rewrite GU' by assumption. rewrite GU by assumption. reflexivity. }
  exists yh. unfold g_loss_augmented_inference. rewrite E. cbn [bind fst snd]. rewrite EU'. cbn [bind]. split; auto. split; [exact Hyh|].
  intros y' Hy'. cbn [t_label g_task] in Hy'. apply margin_score. cbn [t_loss g_task]. rewrite (proj1 Hy).
  assert (S1 : dot w (t_feat (g_task g cw) x yh) = g_score g x w yh) by exact (g_feat_score g cw x yh w Hx Hw Hyh). assert (S2 : dot w (t_feat (g_task g cw) x y') = g_score g x w y') by exact (g_feat_score g cw x y' w Hx Hw Hy'). rewrite S1, S2.
  rewrite <- (g_score_potentials g x w U P yh), <- (g_score_potentials g x w U P y') by assumption.
  assert (A : forall z, Energy.labelling n k z ->
     score n es (mget U') (fun _ => mget P) (lab z) = score n es (mget U) (fun _ => mget P) (lab z) + hamming n (get1 cw) (lab y) (lab z)).
  { intros z Hz. unfold score, hamming.
    rewrite (sumn_ext _ (fun i => mget U' i (lab z i)) (fun i => mget U i (lab z i) + if (lab y i =? lab z i)%nat then 0 else get1 cw (lab y i))).
    - rewrite sumn_plus. ring.
    - intros i Hi. apply GU'; auto. eapply labelling_lt; eauto. }
  rewrite <- !A by assumption. apply Hm. exact Hy'.
Qed.
End Graph.

Lemma g_oracle_near eps solve g cw S : (0 < g_states g)%nat -> length cw = g_states g ->
  (forall p, In p S -> valid_x g (fst p) /\ Energy.labelling (mrows (gx_features (fst p))) (g_states g) (snd p) /\
     near_solver_on eps solve (mrows (gx_features (fst p))) (gx_edges (fst p))) ->
  oracle_near eps (g_smodel solve g cw) (g_task g cw) (g_size g) S /\ infers_near eps (g_smodel solve g cw) (g_task g cw) (g_size g) S.
Proof.
  intros Hk Hc HS. split.
  - intros p Hp. destruct (HS p Hp) as [Hx [Hy Hn]]. split; [apply g_implements; auto|]. intros w Hw.
    destruct (g_near_laug eps solve g cw (fst p) w Hx Hw (snd p) Hc Hy) as [yh [A B]]; [|exists yh; auto].
    intros U m O1 O2 R1 C1 R2 C2 _ _. destruct (Hn U m (g_states g)) as [y [Y1 [Y2 Y3]]]; auto. exists y. auto.
  - intros p w Hp Hw. destruct (HS p Hp) as [Hx [Hy Hn]].
    destruct (g_near_inference eps solve g cw (fst p) w Hx Hw) as [yp [A [B C]]]; [|exists yp; auto].
    intros U m O1 O2 R1 C1 R2 C2 _ _. destruct (Hn U m (g_states g)) as [y [Y1 [Y2 Y3]]]; auto. exists y. auto.
Qed.

(** QPBO: rounding the potentials to thousandths *)
Lemma qpbo_near b solve g cw x y w : b_qpbo b = Some solve -> valid_x g x -> length w = g_size g -> (0 < g_states g)%nat -> length cw = g_states g ->
  Energy.labelling (mrows (gx_features x)) (g_states g) y ->
  (forall Ui Pi, exists yh, solve (gx_edges x) Ui Pi = Ok yh /\ int_minimiser (mrows (gx_features x)) (g_states g) (gx_edges x) Ui Pi yh) ->
  (forall s t, (s < g_states g)%nat -> (t < g_states g)%nat -> fits_int32 (pair_score (g_states g) (g_features g) (g_directed g) w s t)) ->
  ((forall i s, (i < mrows (gx_features x))%nat -> (s < g_states g)%nat -> fits_int32 (unary_score (g_features g) w (mget (gx_features x) i) s)) ->
   exists yp, g_inference (inference_qpbo b) g x w = Ok yp /\ Energy.labelling (mrows (gx_features x)) (g_states g) yp /\
     forall y', Energy.labelling (mrows (gx_features x)) (g_states g) y' ->
       dot w (t_feat (g_task g cw) x y') <= dot w (t_feat (g_task g cw) x yp) + ofN (mrows (gx_features x) + length (gx_edges x)) / ofZ 500) /\
  ((forall i s, (i < mrows (gx_features x))%nat -> (s < g_states g)%nat ->
      fits_int32 (unary_score (g_features g) w (mget (gx_features x) i) s + (if (lab y i =? s)%nat then 0 else get1 cw (lab y i)))) ->
   exists yh, g_loss_augmented_inference (inference_qpbo b) g cw x y w = Ok yh /\
     near_worst (g_task g cw) (ofN (mrows (gx_features x) + length (gx_edges x)) / ofZ 500) w x y yh).
Proof.
  intros HB Hx Hw Hk Hc Hy HS HP.
  assert (K : forall U m, mat_ok U -> mat_ok m -> mrows U = mrows (gx_features x) -> mcols U = g_states g -> mrows m = g_states g -> mcols m = g_states g ->
     (forall i s, (i < mrows (gx_features x))%nat -> (s < g_states g)%nat -> fits_int32 (mget U i s)) ->
     (forall s t, (s < g_states g)%nat -> (t < g_states g)%nat -> mget m s t = pair_score (g_states g) (g_features g) (g_directed g) w s t) ->
     answers_near (ofN (mrows (gx_features x) + length (gx_edges x)) / ofZ 500) (inference_qpbo b) g x U m).
  { intros U m O1 O2 R1 C1 R2 C2 F M.
    destruct (qpbo_near_optimal b solve U (Pw2 m) (gx_edges x) _ _ HB O1 R1 C1 (vx_edges g x Hx)) as [Ui [Pi [E [_ N]]]].
    - exact O2.
    - split; assumption.
    - exact F.
    - intros e s t _ Hs Ht. cbn [pw_table]. rewrite M by assumption. apply HP; assumption.
    - destruct (HS Ui Pi) as [yh [E1 E2]]. exists yh. rewrite E. split; [exact E1|]. split; [apply E2|]. exact (N yh E2). }
  split; intros F.
  - apply (g_near_inference _ _ g cw x w Hx Hw). intros U m O1 O2 R1 C1 R2 C2 A B. apply K; auto. intros i s Hi Hs. rewrite A by assumption. apply F; assumption.
  - apply g_near_laug; auto. intros U m O1 O2 R1 C1 R2 C2 A B. apply K; auto. intros i s Hi Hs. rewrite A by assumption. apply F; assumption.
Qed.

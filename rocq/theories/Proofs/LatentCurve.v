(** objective_curve_ of the latent subgradient learner. *)
From Coq Require Import ZArith.
From Verif Require Import Model.LatentGraph Model.LatentLearner Model.SubgradientLatent Model.ChainCRF Spec.GraphSpec Spec.SolverSpec
  Proofs.Arrays Proofs.EnergyProofs Proofs.GraphCRFProofs Proofs.LossProofs Proofs.CRFProofs Proofs.ChainProofs Proofs.LearnerProofs Proofs.SubgradientRate Proofs.QPProofs
  Proofs.LatentProofs Proofs.LatentProofs2 Proofs.LatentProofs3 Proofs.LatentProofs4 Proofs.LatentProofs5 Spec.SubgradientSpec Spec.LatentCurveSpec.

Lemma loop_passes {X Y} prm (m : lmodel X Y) lr S : sg_jobs prm = 1%Z -> forall k st c st' c', lsg_loop prm m lr S k st c = Ok (st', c') ->
  exists Ps, lsg_passes prm m lr S st Ps /\ st' = passes_end st Ps /\
    ((c' = c ++ pass_entries (sg_C prm) st Ps /\ length Ps = k) \/
     (exists Qs V, Ps = Qs ++ [V] /\ c' = c ++ pass_entries (sg_C prm) st Qs /\ (length Ps <= k)%nat /\ sg_break prm = true /\ Forall (fun v => snd v <= 0) V)).
Proof.
  intros HJ. induction k as [|k IH]; intros st c st' c' H; cbn [lsg_loop] in H.
  - exists []. split; [exact I|]. assert (st = st' /\ c = c') as [-> ->] by (split; congruence). split; [reflexivity|]. left. cbn. rewrite app_nil_r. auto.
  - apply bind_ok in H. destruct H as [[[s1 pos] obj] [E1 H]]. apply (epoch_visits prm m lr S st s1 pos obj HJ) in E1.
    destruct E1 as [V [V1 [V2 [V3 [V4 V5]]]]]. change (s1 = pass_end st V) in V3. destruct ((pos =? 0)%nat && sg_break prm)%bool eqn:B.
    + assert (s1 = st' /\ c = c') as [<- <-] by (split; congruence). exists [V]. split; [cbn; auto|]. split; [exact V3|]. right.
      exists [], V. split; [reflexivity|]. split; [cbn; rewrite app_nil_r; reflexivity|]. split; [cbn; lia|]. apply andb_true_iff in B. destruct B as [B1 B2]. split; [exact B2|].
      apply Nat.eqb_eq in B1. apply Forall_forall. intros v Hv. destruct (Qcltb_spec 0 (snd v)) as [Q|Q]; [|exact Q]. exfalso.
      assert (J : In v (filter (fun v => Qcltb 0 (snd v)) V)) by (apply filter_In; split; [exact Hv|destruct (Qcltb_spec 0 (snd v)); [reflexivity|qclra]]).
      destruct (filter (fun v => Qcltb 0 (snd v)) V); [destruct J|cbn in V4; lia].
    + assert (EN : obj * sg_C prm + normsq (sg_self s1) / (1 + 1) = pass_entry (sg_C prm) st V) by (unfold pass_entry; rewrite V5, V3; rewrite Qcmult_comm; reflexivity).
      rewrite EN in H. apply IH in H. destruct H as [Ps [P1 [P2 P3]]]. exists (V :: Ps). rewrite V3 in P1, P2, P3. split; [cbn; auto|]. split; [exact P2|].
      destruct P3 as [[P3 P4]|[Qs [W [P3 [P4 [P5 [P6 P7]]]]]]].
      * left. cbn [pass_entries length]. rewrite P3, <- app_assoc. split; [reflexivity|lia].
      * right. exists (V :: Qs), W. split; [cbn; congruence|]. split; [rewrite P4, <- app_assoc; reflexivity|]. split; [cbn; lia|]. auto.
Qed.
(** The curve: the old one on a warm start, an entry per pass (none for a last pass without
    positive slacks, if it ends the training), the objective of the weights returned. *)
Lemma fit_entries {X Y} prm (m : lmodel X Y) w0 warm S L t w lr c : sg_jobs prm = 1%Z -> lsg_fit prm m w0 warm S L = Ok (SGLearner t (Some (w, lr, c))) ->
  exists st Ps Qs o, lsg_passes prm m lr S st Ps /\ sg_t st = sl_t L /\
    (match sl_fitted L with Some (v, _, _) => sg_w st = v /\ sg_self st = v | None => sg_w st = w0 /\ sg_self st = w0 end) /\
    w = sg_self (passes_end st Ps) /\ t = sg_t (passes_end st Ps) /\
    c = (if warm then match sl_fitted L with Some (_, _, c0) => c0 | None => [] end else []) ++ pass_entries (sg_C prm) st Qs ++ [o] /\
    latent_objective m (sg_C prm) w S = Ok o /\
    ((Qs = Ps /\ length Ps = sg_max_iter prm) \/
     (exists V, Ps = Qs ++ [V] /\ (length Ps <= sg_max_iter prm)%nat /\ sg_break prm = true /\ Forall (fun v => snd v <= 0) V)).
Proof.
  intros HJ H. unfold lsg_fit in H. apply bind_ok in H. destruct H as [lc [E0 H]]. apply bind_ok in H. destruct H as [[st' c'] [E1 H]]. apply bind_ok in H. destruct H as [o [E2 H]].
  assert (EW : sg_self st' = w) by congruence. assert (EC : c' ++ [o] = c) by congruence. assert (EL : fst lc = lr) by congruence. assert (ET : sg_t st' = t) by congruence.
  clear H. rewrite EL in E1. apply (loop_passes prm m lr S HJ) in E1. destruct E1 as [Ps [P1 [P2 P3]]].
  set (st := SGState (match sl_fitted L with Some (w, _, _) => w | None => w0 end) (match sl_fitted L with Some (w, _, _) => w | None => w0 end) (vzero (sm_size (lm_s m))) (sl_t L)) in *.
  assert (ES : snd lc = if warm then match sl_fitted L with Some (_, _, c0) => c0 | None => [] end else []).
  { destruct warm; [|assert (Q : lc = (match sg_lr prm with Some r => r | None => sg_C prm * ofN (length S) end, [])) by congruence; rewrite Q; reflexivity].
    destruct (sl_fitted L) as [[[v r] c0]|]; [|discriminate E0]. assert (Q : lc = (r, c0)) by congruence. rewrite Q. reflexivity. }
  assert (SW : match sl_fitted L with Some (v, _, _) => sg_w st = v /\ sg_self st = v | None => sg_w st = w0 /\ sg_self st = w0 end) by (unfold st; destruct (sl_fitted L) as [[[v r] c0]|]; split; reflexivity).
  rewrite <- ES. destruct P3 as [[P3 P4]|[Qs [V [P3 [P4 [P5 [P6 P7]]]]]]].
  - exists st, Ps, Ps, o. rewrite <- EW, <- ET, <- P2, <- EC, P3, <- app_assoc. split; [exact P1|]. split; [reflexivity|]. split; [exact SW|]. repeat (split; [reflexivity|]). split; [exact E2|]. left. auto.
  - exists st, Ps, Qs, o. rewrite <- EW, <- ET, <- P2, <- EC, P4, <- app_assoc. split; [exact P1|]. split; [reflexivity|]. split; [exact SW|]. repeat (split; [reflexivity|]). split; [exact E2|]. right. exists V. auto.
Qed.

Section Pass.
Context {X Y : Type} (T : task X Y) (E : X -> Y -> Y -> Prop) (d : nat) (m : lmodel X Y).
Hypothesis HR : sm_rescale (lm_s m) = false.
(** The slack of a visit is the latent hinge loss at the weights before its step. *)
Lemma visit_slack prm n lr p st st' sl : length (sg_w st) = d -> latent_exact m T E d (sg_w st) p -> lsg_online_step prm m n lr p st = Ok (st', sl) ->
  is_latent_hinge T E (sg_w st) (fst p) (snd p) sl.
Proof.
  intros Hw HX Q. destruct (fcl_value T E d m HR p (sg_w st) Hw HX) as [h [hh [v [F1 [F2 [F3 [F4 [F5 [F6 [F7 _]]]]]]]]]].
  destruct HX as [[_ [HI _]] _]. specialize (HI h (proj1 F2)).
  unfold lsg_online_step in Q. rewrite F1 in Q. cbn [bind] in Q. rewrite F3 in Q. cbn [bind] in Q.
  destruct HI as [I1 [I2 I3]]. destruct (I3 _ I1) as [J1 [J2 _]]. destruct (I3 _ F4) as [K1 [K2 K3]]. rewrite HR in J2, K2.
  rewrite J2 in Q. cbn [bind] in Q. rewrite K2 in Q. cbn [bind] in Q. unfold np_vsub in Q. rewrite J1, K1, Nat.eqb_refl in Q. cbn [bind] in Q.
  rewrite np_dot_ok in Q by (rewrite vsub_length; congruence). cbn [bind] in Q. rewrite K3 in Q. cbn [bind] in Q. apply bind_ok in Q. destruct Q as [s2 [_ Q]].
  assert (Q' : - dot (vsub (t_feat T (fst p) h) (t_feat T (fst p) hh)) (sg_w st) + t_loss T h hh = sl) by congruence.
  assert (V : sl = v) by (rewrite <- Q', F7, dot_comm; ring). rewrite V. exists h. split; assumption.
Qed.
Lemma latent_nonneg w p v : latent_implements m T E d (fst p) (snd p) -> is_latent_hinge T E w (fst p) (snd p) v -> 0 <= v.
Proof.
  intros [_ [HI _]] [h [[B _] [_ H]]]. destruct (HI h B) as [I1 [I2 _]]. specialize (H h I1). unfold margin in H. rewrite I2 in H.
  replace 0 with (0 - (dot w (t_feat T (fst p) h) - dot w (t_feat T (fst p) h))) by ring. exact H.
Qed.
(** The latent hinge loss is Lipschitz. *)
Lemma latent_lipschitz w w' p v v' R D : latent_implements m T E d (fst p) (snd p) -> length w = d -> length w' = d -> 0 <= R -> 0 <= D ->
  (forall z h, t_label T (fst p) z -> E (fst p) (snd p) h -> normsq (vsub (t_feat T (fst p) z) (t_feat T (fst p) h)) <= R * R) ->
  normsq (vsub w w') <= D * D ->
  is_latent_hinge T E w (fst p) (snd p) v -> is_latent_hinge T E w' (fst p) (snd p) v' -> v - v' <= R * D.
Proof.
  intros [_ [HI HL]] Lw Lw' HR0 HD HF HW [h [[B1 B2] [[z [Z1 Z2]] _]]] [h' [[B1' B2'] [_ H']]].
  specialize (H' z Z1). specialize (B2 h' B1'). destruct (HI h' B1') as [I1 [_ I3]]. destruct (I3 _ I1) as [J1 _]. destruct (I3 _ Z1) as [K1 _].
  assert (LL := HL h h' z B1 B1' Z1). unfold margin in *.
  assert (DL := dot_le (vsub (t_feat T (fst p) z) (t_feat T (fst p) h')) (vsub w w') R D ltac:(rewrite !vsub_length; congruence) HR0 HD (HF z h' Z1 B1') HW).
  rewrite dot_vsub_l, !dot_vsub_r in DL by congruence. rewrite !(dot_comm (t_feat T (fst p) _)) in DL.
  set (a := dot w (t_feat T (fst p) z)) in *. set (b := dot w' (t_feat T (fst p) z)) in *. set (c := dot w (t_feat T (fst p) h')) in *. set (e := dot w' (t_feat T (fst p) h')) in *.
  set (f := dot w (t_feat T (fst p) h)) in *. rewrite LL in Z2. clearbody a b c e f. set (rd := R * D) in *. clearbody rd. qclra.
Qed.
(** What a pass adds up, compared with the latent objective at any other weights. *)
Lemma pass_slacks prm n lr u R D : length u = d -> 0 <= R -> 0 <= D -> forall V st vs,
  lsg_visits prm m n lr st V ->
  Forall (fun v => length v = d /\ normsq (vsub v u) <= D * D /\ normsq (vsub u v) <= D * D /\ Forall (latent_exact m T E d v) (map (fun v => fst (fst v)) V)) (looked_at st V) ->
  Forall (fun p => forall z h, t_label T (fst p) z -> E (fst p) (snd p) h -> normsq (vsub (t_feat T (fst p) z) (t_feat T (fst p) h)) <= R * R) (map (fun v => fst (fst v)) V) ->
  latent_hinges T E u (map (fun v => fst (fst v)) V) vs ->
  lsum (map (fun v => Qcmax (snd v) 0) V) - lsum vs <= ofN (length V) * (R * D) /\ lsum vs - lsum (map (fun v => Qcmax (snd v) 0) V) <= ofN (length V) * (R * D).
Proof.
  intros Hu HR0 HD. induction V as [|[[p s1] sl] V IH]; intros st vs HV HL HF HS.
  - inversion HS; subst. cbn [map lsum length]. rewrite ofN_0. replace (0 * (R * D)) with 0 by ring. split; qclra.
  - cbn [map fst snd] in *. cbn [lsg_visits looked_at] in *. destruct HV as [V1 V2]. inversion HS as [|p0 v0 l0 vs0 S1 S2]; subst p0 l0 vs.
    inversion HL as [|x0 l0 [A1 [A2 [A3 A4]]] A5]; subst x0 l0. inversion HF as [|x0 l0 F1 F2]; subst x0 l0. inversion A4 as [|x0 l0 X1 X2]; subst x0 l0.
    assert (SL := visit_slack prm n lr p st s1 sl A1 X1 V1). assert (IM := proj1 X1).
    assert (N := latent_nonneg (sg_w st) p sl IM SL).
    assert (U1 := latent_lipschitz (sg_w st) u p sl v0 R D IM A1 Hu HR0 HD F1 A2 SL S1).
    assert (U2 := latent_lipschitz u (sg_w st) p v0 sl R D IM Hu A1 HR0 HD F1 A3 S1 SL).
    destruct (IH s1 vs0 V2) as [B1 B2].
    { apply Forall_impl with (2 := A5). intros v [C1 [C2 [C3 C4]]]. repeat (split; [assumption|]). inversion C4; assumption. }
    { exact F2. } { exact S2. }
    cbn [lsum length]. rewrite ofN_S. assert (QM : Qcmax sl 0 = sl) by (unfold Qcmax; destruct (Qcleb_spec sl 0) as [Q|Q]; [apply Qcle_antisym; assumption|reflexivity]).
    rewrite QM. replace ((1 + ofN (length V)) * (R * D)) with (R * D + ofN (length V) * (R * D)) by ring.
    set (rd := R * D) in *. set (nrd := ofN (length V) * rd) in *. clearbody rd nrd.
    set (q1 := lsum (map (fun v => Qcmax (snd v) 0) V)) in *. set (q2 := lsum vs0) in *. clearbody q1 q2. split; qclra.
Qed.
Lemma pass_gap prm n lr R D V st vs : 0 <= sg_C prm -> length (sg_self (pass_end st V)) = d -> 0 <= R -> 0 <= D ->
  lsg_visits prm m n lr st V ->
  Forall (fun v => length v = d /\ normsq (vsub v (sg_self (pass_end st V))) <= D * D /\ Forall (latent_exact m T E d v) (map (fun v => fst (fst v)) V)) (looked_at st V) ->
  Forall (fun p => forall z h, t_label T (fst p) z -> E (fst p) (snd p) h -> normsq (vsub (t_feat T (fst p) z) (t_feat T (fst p) h)) <= R * R) (map (fun v => fst (fst v)) V) ->
  latent_hinges T E (sg_self (pass_end st V)) (map (fun v => fst (fst v)) V) vs ->
  pass_entry (sg_C prm) st V - primal_value (sg_C prm) (sg_self (pass_end st V)) vs <= sg_C prm * (ofN (length V) * (R * D)) /\
  primal_value (sg_C prm) (sg_self (pass_end st V)) vs - pass_entry (sg_C prm) st V <= sg_C prm * (ofN (length V) * (R * D)).
Proof.
  intros HC Hu HR0 HD HV HL HF HS. destruct (pass_slacks prm n lr (sg_self (pass_end st V)) R D Hu HR0 HD V st vs HV) as [A1 A2]; [|exact HF|exact HS|].
  { apply Forall_impl with (2 := HL). intros v [B1 [B2 B3]]. split; [exact B1|]. split; [exact B2|]. split; [|exact B3].
    replace (normsq (vsub (sg_self (pass_end st V)) v)) with (normsq (vsub v (sg_self (pass_end st V)))); [exact B2|]. rewrite !QPProofs.normsq_vsub by congruence. rewrite (dot_comm v). ring. }
  unfold pass_entry, primal_value. set (nn := normsq (sg_self (pass_end st V)) / (1 + 1)). clearbody nn.
  set (q1 := lsum (map (fun v => Qcmax (snd v) 0) V)) in *. set (q2 := lsum vs) in *. set (b := ofN (length V) * (R * D)) in *. clearbody q1 q2 b.
  split.
  - replace (sg_C prm * q1 + nn - (sg_C prm * q2 + nn)) with ((q1 - q2) * sg_C prm) by ring. rewrite (Qcmult_comm (sg_C prm) b). apply Qcmult_le_compat_r; assumption.
  - replace (sg_C prm * q2 + nn - (sg_C prm * q1 + nn)) with ((q2 - q1) * sg_C prm) by ring. rewrite (Qcmult_comm (sg_C prm) b). apply Qcmult_le_compat_r; assumption.
Qed.
End Pass.

(** ** SubgradientSSVM *)
Lemma sg_loop_passes {X Y} prm (bm : bmodel X Y) lr shuf : forall k it S st c st' c' S', sg_loop prm bm lr shuf k it S st c = Ok (st', c', S') ->
  exists Ps Qs os, sg_passes prm bm lr shuf it S st Ps /\ (st', S') = last Ps (st, S) /\ c' = c ++ os /\
    Forall2 (fun o q => sg_objective prm bm (snd q) (sg_self (fst q)) = Ok o) os Qs /\
    ((Qs = Ps /\ length Ps = k) \/ (exists q, Ps = Qs ++ [q] /\ (length Ps <= k)%nat /\ sg_break prm = true)).
Proof.
  induction k as [|k IH]; intros it S st c st' c' S' H; cbn [sg_loop] in H.
  - exists [], [], []. split; [exact I|]. split; [cbn; congruence|]. split; [rewrite app_nil_r; congruence|]. split; [constructor|]. left. auto.
  - apply bind_ok in H. destruct H as [[s1 pos] [E1 H]]. cbn [fst snd] in H. destruct ((pos =? 0)%Z && sg_break prm)%bool eqn:B.
    + exists [(s1, shuf it S)], [], []. split; [cbn; split; [reflexivity|]; split; [exists pos; exact E1|exact I]|]. split; [cbn; congruence|]. split; [rewrite app_nil_r; congruence|]. split; [constructor|].
      right. exists (s1, shuf it S). split; [reflexivity|]. split; [cbn; lia|]. apply andb_true_iff in B. apply B.
    + apply bind_ok in H. destruct H as [o [E2 H]]. apply IH in H. destruct H as [Ps [Qs [os [P1 [P2 [P3 [P4 P5]]]]]]].
      exists ((s1, shuf it S) :: Ps), ((s1, shuf it S) :: Qs), (o :: os). split; [cbn; split; [reflexivity|]; split; [exists pos; exact E1|exact P1]|].
      split; [rewrite P2; clear; revert s1; generalize (shuf it S); destruct Ps as [|q Ps]; intros l s1; [reflexivity|]; cbn; revert q; induction Ps as [|r Ps IH]; intros q; [reflexivity|]; apply (IH r)|].
      split; [rewrite P3, <- app_assoc; reflexivity|]. split; [constructor; [exact E2|exact P4]|].
      destruct P5 as [[-> P6]|[q [P6 [P7 P8]]]]; [left; split; [reflexivity|cbn; lia]|right]. exists q. split; [rewrite P6; reflexivity|]. split; [cbn; lia|exact P8].
Qed.
Lemma sg_fit_entries {X Y} prm (bm : bmodel X Y) shuf warm S L t w lr c : sg_fit prm bm shuf warm S L = Ok (SGLearner t (Some (w, lr, c))) ->
  exists st Ps Qs os o, sg_passes prm bm lr shuf 0 S st Ps /\ sg_t st = sl_t L /\
    sg_w st = (match sl_fitted L with Some (v, _, _) => v | None => vzero (sm_size (bm_s bm)) end) /\
    w = sg_self (fst (last Ps (st, S))) /\ (Ps = [] -> w = sg_w st) /\
    c = (if warm then match sl_fitted L with Some (_, _, c0) => c0 | None => [] end else []) ++ os ++ [o] /\
    Forall2 (fun o q => sg_objective prm bm (snd q) (sg_self (fst q)) = Ok o) os Qs /\ sg_objective prm bm (snd (last Ps (st, S))) w = Ok o /\
    ((Qs = Ps /\ length Ps = sg_max_iter prm) \/ (exists q, Ps = Qs ++ [q] /\ (length Ps <= sg_max_iter prm)%nat /\ sg_break prm = true)).
Proof.
  intros H. unfold sg_fit in H. apply bind_ok in H. destruct H as [lc [E0 H]]. apply bind_ok in H. destruct H as [[[st' c'] S'] [E1 H]]. apply bind_ok in H. destruct H as [o [E2 H]].
  assert (EW : sg_self st' = w) by congruence. assert (EC : c' ++ [o] = c) by congruence. assert (EL : fst lc = lr) by congruence.
  clear H. rewrite EL in E1. apply sg_loop_passes in E1. destruct E1 as [Ps [Qs [os [P1 [P2 [P3 [P4 P5]]]]]]].
  match type of P1 with sg_passes _ _ _ _ _ _ ?s _ => set (st := s) in * end.
  assert (ES : snd lc = if warm then match sl_fitted L with Some (_, _, c0) => c0 | None => [] end else []).
  { destruct warm; [|assert (Q : lc = (match sg_lr prm with Some r => r | None => sg_C prm * ofN (length S) end, [])) by congruence; rewrite Q; reflexivity].
    destruct (sl_fitted L) as [[[v r] c0]|]; [|discriminate E0]. assert (Q : lc = (r, c0)) by congruence. rewrite Q. reflexivity. }
  exists st, Ps, Qs, os, o. rewrite <- P2. cbn [fst snd]. rewrite <- ES, <- EC, P3, <- app_assoc, <- EW. split; [exact P1|]. split; [reflexivity|]. split; [reflexivity|]. split; [reflexivity|].
  split; [intros ->; cbn in P2; assert (Q : st' = st) by congruence; rewrite Q; reflexivity|]. split; [reflexivity|]. split; [exact P4|]. split; [exact E2|exact P5].
Qed.

(** objective_curve_ of the latent subgradient learner in parallel mode. *)
From Coq Require Import ZArith.
From Verif Require Import Model.LatentLearner Model.SubgradientLatent Proofs.Arrays Proofs.LossProofs Proofs.LearnerProofs Proofs.SubgradientRate2
  Proofs.LatentProofs4 Proofs.LatentCurve Spec.SubgradientSpec Spec.ParallelCurveSpec.

Lemma gather_parts {Y} (cs : list (Y * list Qc * Qc * Qc)) : forall dj pos obj dj' pos' obj', lsg_gather cs dj pos obj = Ok (dj', pos', obj') ->
  sum_features dj (map (fun c => Ok (snd (fst (fst c)))) cs) = Ok dj' /\ obj' = obj + lsum (map (fun c => snd (fst c)) cs) /\
  (pos' = O -> pos = O /\ Forall (fun c => snd (fst c) <= 0) cs).
Proof.
  induction cs as [|[[[y dl] sl] lo] cs IH]; intros dj pos obj dj' pos' obj' H; cbn [lsg_gather] in H.
  - cbn [map sum_features lsum]. split; [congruence|]. split; [replace (obj + 0) with obj by ring; congruence|]. intros ->. split; [congruence|constructor].
  - apply bind_ok in H. destruct H as [d1 [E1 H]]. apply IH in H. destruct H as [A1 [A2 A3]]. cbn [map fst snd sum_features bind lsum]. rewrite E1. cbn [bind].
    split; [exact A1|]. split; [rewrite A2; ring|]. intros E. destruct (A3 E) as [B1 B2]. destruct (Qcltb_spec 0 sl) as [Q|Q]; [discriminate B1|]. split; [exact B1|]. constructor; [exact Q|exact B2].
Qed.
Lemma last_cons {A} (a : A) l d : last (a :: l) d = last l a.
Proof. revert a d. induction l as [|b l IH]; intros a d; [reflexivity|]. change (last (b :: l) d = last (b :: l) a). rewrite !IH. reflexivity. Qed.
Lemma par_parts {X Y} prm (m : lmodel X Y) n lr : forall Bs st pos obj st' pos' obj', lsg_par prm m n lr Bs st pos obj = Ok (st', pos', obj') ->
  exists V, map (fun v => fst (fst v)) V = Bs /\ par_batches prm m n lr st V /\ st' = par_end st V /\ obj' = obj + lsum (concat (map snd V)) /\
    (pos' = O -> pos = O /\ Forall (fun s => s <= 0) (concat (map snd V))).
Proof.
  induction Bs as [|B Bs IH]; intros st pos obj st' pos' obj' H; cbn [lsg_par] in H.
  - exists []. split; [reflexivity|]. split; [exact I|]. split; [cbn; congruence|]. split; [cbn; replace (obj + 0) with obj by ring; congruence|]. intros ->. split; [congruence|constructor].
  - apply bind_ok in H. destruct H as [cs [E1 H]]. apply bind_ok in H. destruct H as [[[dj p1] o1] [E2 H]]. apply gather_parts in E2. destruct E2 as [A1 [A2 A3]].
    apply bind_ok in H. destruct H as [[] [E3 H]]. apply bind_ok in H. destruct H as [s1 [E4 H]]. apply IH in H. destruct H as [V [V1 [V2 [V3 [V4 V5]]]]].
    exists ((B, s1, map (fun c => snd (fst c)) cs) :: V). cbn [map fst snd concat par_batches]. split; [congruence|].
    split. { split; [intros ->; discriminate E3|]. split; [exists cs, dj; auto|exact V2]. }
    split. { rewrite V3. unfold par_end. cbn [map fst snd]. rewrite last_cons. reflexivity. }
    split. { rewrite V4, A2, lsum_app. ring. }
    intros E. destruct (V5 E) as [W1 W2]. destruct (A3 W1) as [W3 W4]. split; [exact W3|]. apply Forall_app. split; [|exact W2].
    apply Forall_forall. intros s Hs. apply in_map_iff in Hs. destruct Hs as [c [<- Hc]]. rewrite Forall_forall in W4. exact (W4 c Hc).
Qed.
Lemma par_epoch {X Y} prm (m : lmodel X Y) lr S st st' pos obj : sg_jobs prm = (-1)%Z -> S <> [] -> lsg_epoch prm m lr S st = Ok (st', pos, obj) ->
  exists V, concat (map (fun v => fst (fst v)) V) = S /\ Forall (fun v => (length (fst (fst v)) <= sg_cpus prm)%nat) V /\
    par_batches prm m (length S) lr st V /\ st' = par_end st V /\ obj = lsum (concat (map snd V)) /\ (pos = O -> Forall (fun s => s <= 0) (concat (map snd V))).
Proof.
  intros HJ HS H. unfold lsg_epoch in H. rewrite HJ in H. cbn [Z.eqb Pos.eqb] in H. apply bind_ok in H. destruct H as [sl [E1 H]].
  assert (HC : (0 < Z.of_nat (sg_cpus prm))%Z). { destruct (sg_cpus prm); [discriminate E1|lia]. }
  destruct (slices_facts S (Z.of_nat (sg_cpus prm))) as [sl' [F1 [F2 [_ [_ [F5 _]]]]]]; [destruct S; [congruence|cbn; lia]|exact HC|].
  assert (sl' = sl) by congruence. subst sl'. rewrite Nat2Z.id in F5. apply par_parts in H. destruct H as [V [V1 [V2 [V3 [V4 V5]]]]].
  exists V. split; [rewrite V1; exact F2|]. split.
  { apply Forall_forall. intros v Hv. rewrite Forall_forall in F5. apply F5. rewrite <- V1. apply in_map_iff. exists v. auto. }
  split; [exact V2|]. split; [exact V3|]. split; [rewrite V4; ring|]. intros E. apply V5. exact E.
Qed.
Lemma par_loop_passes {X Y} prm (m : lmodel X Y) lr S : sg_jobs prm = (-1)%Z -> S <> [] -> forall k st c st' c', lsg_loop prm m lr S k st c = Ok (st', c') ->
  exists Ps, par_passes prm m lr S st Ps /\ st' = par_passes_end st Ps /\
    ((c' = c ++ par_entries (sg_C prm) st Ps /\ length Ps = k) \/
     (exists Qs V, Ps = Qs ++ [V] /\ c' = c ++ par_entries (sg_C prm) st Qs /\ (length Ps <= k)%nat /\ sg_break prm = true /\ Forall (fun s => s <= 0) (concat (map snd V)))).
Proof.
  intros HJ HS. induction k as [|k IH]; intros st c st' c' H; cbn [lsg_loop] in H.
  - exists []. split; [exact I|]. assert (st = st' /\ c = c') as [-> ->] by (split; congruence). split; [reflexivity|]. left. cbn. rewrite app_nil_r. auto.
  - apply bind_ok in H. destruct H as [[[s1 pos] obj] [E1 H]]. apply (par_epoch prm m lr S st s1 pos obj HJ HS) in E1.
    destruct E1 as [V [V1 [V2 [V3 [V4 [V5 V6]]]]]]. destruct ((pos =? 0)%nat && sg_break prm)%bool eqn:B.
    + assert (s1 = st' /\ c = c') as [<- <-] by (split; congruence). exists [V]. split; [cbn; auto|]. split; [exact V4|]. right.
      exists [], V. split; [reflexivity|]. split; [cbn; rewrite app_nil_r; reflexivity|]. split; [cbn; lia|]. apply andb_true_iff in B. destruct B as [B1 B2]. split; [exact B2|].
      apply Nat.eqb_eq in B1. apply V6. exact B1.
    + assert (EN : obj * sg_C prm + normsq (sg_self s1) / (1 + 1) = par_entry (sg_C prm) st V) by (unfold par_entry; rewrite V5, V4; rewrite Qcmult_comm; reflexivity).
      rewrite EN in H. apply IH in H. destruct H as [Ps [P1 [P2 P3]]]. exists (V :: Ps). rewrite V4 in P1, P2, P3. split; [cbn; auto|]. split; [exact P2|].
      destruct P3 as [[P3 P4]|[Qs [W [P3 [P4 [P5 [P6 P7]]]]]]].
      * left. cbn [par_entries length]. rewrite P3, <- app_assoc. split; [reflexivity|lia].
      * right. exists (V :: Qs), W. split; [cbn; congruence|]. split; [rewrite P4, <- app_assoc; reflexivity|]. split; [cbn; lia|]. auto.
Qed.
Lemma par_fit_entries {X Y} prm (m : lmodel X Y) w0 warm S L t w lr c : sg_jobs prm = (-1)%Z -> lsg_fit prm m w0 warm S L = Ok (SGLearner t (Some (w, lr, c))) ->
  exists st Ps Qs o, par_passes prm m lr S st Ps /\ sg_t st = sl_t L /\
    (match sl_fitted L with Some (v, _, _) => sg_w st = v /\ sg_self st = v | None => sg_w st = w0 /\ sg_self st = w0 end) /\
    w = sg_self (par_passes_end st Ps) /\ t = sg_t (par_passes_end st Ps) /\
    c = (if warm then match sl_fitted L with Some (_, _, c0) => c0 | None => [] end else []) ++ par_entries (sg_C prm) st Qs ++ [o] /\
    latent_objective m (sg_C prm) w S = Ok o /\
    ((Qs = Ps /\ length Ps = sg_max_iter prm) \/
     (exists V, Ps = Qs ++ [V] /\ (length Ps <= sg_max_iter prm)%nat /\ sg_break prm = true /\ Forall (fun s => s <= 0) (concat (map snd V)))).
Proof.
  intros HJ H. unfold lsg_fit in H. apply bind_ok in H. destruct H as [lc [E0 H]]. apply bind_ok in H. destruct H as [[st' c'] [E1 H]]. apply bind_ok in H. destruct H as [o [E2 H]].
  assert (EW : sg_self st' = w) by congruence. assert (EC : c' ++ [o] = c) by congruence. assert (EL : fst lc = lr) by congruence. assert (ET : sg_t st' = t) by congruence.
  assert (HS : S <> []) by (intros ->; discriminate E2).
  clear H. rewrite EL in E1. apply (par_loop_passes prm m lr S HJ HS) in E1. destruct E1 as [Ps [P1 [P2 P3]]].
  set (st := SGState (match sl_fitted L with Some (w, _, _) => w | None => w0 end) (match sl_fitted L with Some (w, _, _) => w | None => w0 end) (vzero (sm_size (lm_s m))) (sl_t L)) in *.
  assert (ES : snd lc = if warm then match sl_fitted L with Some (_, _, c0) => c0 | None => [] end else []).
  { destruct warm; [|assert (Q : lc = (match sg_lr prm with Some r => r | None => sg_C prm * ofN (length S) end, [])) by congruence; rewrite Q; reflexivity].
    destruct (sl_fitted L) as [[[v r] c0]|]; [|discriminate E0]. assert (Q : lc = (r, c0)) by congruence. rewrite Q. reflexivity. }
  assert (SW : match sl_fitted L with Some (v, _, _) => sg_w st = v /\ sg_self st = v | None => sg_w st = w0 /\ sg_self st = w0 end) by (unfold st; destruct (sl_fitted L) as [[[v r] c0]|]; split; reflexivity).
  rewrite <- ES. destruct P3 as [[P3 P4]|[Qs [V [P3 [P4 [P5 [P6 P7]]]]]]].
  - exists st, Ps, Ps, o. rewrite <- EW, <- ET, <- P2, <- EC, P3, <- app_assoc. split; [exact P1|]. split; [reflexivity|]. split; [exact SW|]. repeat (split; [reflexivity|]). split; [exact E2|]. left. auto.
  - exists st, Ps, Qs, o. rewrite <- EW, <- ET, <- P2, <- EC, P4, <- app_assoc. split; [exact P1|]. split; [reflexivity|]. split; [exact SW|]. repeat (split; [reflexivity|]). split; [exact E2|]. right. exists V. auto.
Qed.
(** The slacks of a batch are the latent hinge losses at the weights before it, where
    find_constraint_latent charges the right loss. *)
Lemma batch_slacks {X Y} (T : task X Y) E d (m : lmodel X Y) w : sm_rescale (lm_s m) = false -> length w = d -> forall B cs,
  Forall (latent_exact m T E d w) B -> Forall (right_loss m T E) B ->
  mapM (fun p => find_constraint_latent m (fst p) (snd p) w) B = Ok cs -> latent_hinges T E w B (map (fun c => snd (fst c)) cs).
Proof.
  intros HR Hw. induction B as [|p B IH]; intros cs HX HL H; cbn [mapM] in H.
  - assert (cs = []) by congruence. subst cs. constructor.
  - apply bind_ok in H. destruct H as [c [E1 H]]. apply bind_ok in H. destruct H as [cs' [E2 H]]. assert (cs = c :: cs') by congruence. subst cs. clear H.
    inversion HX as [|? ? X1 X2]; subst. inversion HL as [|? ? L1 L2]; subst. cbn [map]. constructor; [|exact (IH cs' X2 L2 E2)].
    destruct (fcl_value T E (length w) m HR p w eq_refl X1) as [h [hh [v [F1 [F2 [F3 [F4 [F5 [F6 [F7 [F8 F9]]]]]]]]]]].
    specialize (F9 _ (L1 h hh (proj1 F2) F4)). rewrite F9 in E1. injection E1 as <-. cbn [fst snd]. replace (v + (t_loss T h hh - t_loss T h hh)) with v by ring.
    replace (Qcmax v 0) with v; [exists h; split; assumption|]. unfold Qcmax. destruct (Qcleb_spec v 0) as [Q|Q]; [apply Qcle_antisym; assumption|reflexivity].
Qed.
(** What a pass adds up, compared with the latent objective at its end. *)
Section Gap.
Context {X Y : Type} (T : task X Y) (E : X -> Y -> Y -> Prop) (d : nat) (m : lmodel X Y).
Hypothesis HR : sm_rescale (lm_s m) = false.
Notation spread R := (fun p : X * Y => forall z h, t_label T (fst p) z -> E (fst p) (snd p) h -> normsq (vsub (t_feat T (fst p) z) (t_feat T (fst p) h)) <= R * R).
Lemma batch_gap w u R D : length w = d -> length u = d -> 0 <= R -> 0 <= D -> normsq (vsub w u) <= D * D -> normsq (vsub u w) <= D * D -> forall B ss vs,
  Forall (latent_exact m T E d w) B -> Forall (spread R) B -> latent_hinges T E w B ss -> latent_hinges T E u B vs ->
  lsum ss - lsum vs <= ofN (length B) * (R * D) /\ lsum vs - lsum ss <= ofN (length B) * (R * D).
Proof.
  intros Hw Hu HR0 HD A2 A3. induction B as [|p B IH]; intros ss vs HX HF H1 H2.
  - inversion H1; subst. inversion H2; subst. cbn [lsum length]. rewrite ofN_0. replace (0 * (R * D)) with 0 by ring. split; qclra.
  - inversion H1 as [|p0 s0 l0 ss0 S1 S2]; subst p0 l0 ss. inversion H2 as [|p0 v0 l0 vs0 S3 S4]; subst p0 l0 vs.
    inversion HX as [|x0 l0 X1 X2]; subst x0 l0. inversion HF as [|x0 l0 F1 F2]; subst x0 l0. assert (IM := proj1 X1).
    assert (U1 := latent_lipschitz T E d m w u p s0 v0 R D IM Hw Hu HR0 HD F1 A2 S1 S3).
    assert (U2 := latent_lipschitz T E d m u w p v0 s0 R D IM Hu Hw HR0 HD F1 A3 S3 S1).
    destruct (IH ss0 vs0 X2 F2 S2 S4) as [B1 B2]. cbn [lsum length]. rewrite ofN_S.
    replace ((1 + ofN (length B)) * (R * D)) with (R * D + ofN (length B) * (R * D)) by ring.
    set (rd := R * D) in *. set (nrd := ofN (length B) * rd) in *. clearbody rd nrd. split; qclra.
Qed.
Lemma par_slacks prm n lr u R D : length u = d -> 0 <= R -> 0 <= D -> forall V st vs,
  par_batches prm m n lr st V ->
  Forall (fun v => length v = d /\ normsq (vsub v u) <= D * D /\ normsq (vsub u v) <= D * D /\ Forall (latent_exact m T E d v) (concat (map (fun v => fst (fst v)) V))) (par_looked_at st V) ->
  Forall (right_loss m T E) (concat (map (fun v => fst (fst v)) V)) -> Forall (spread R) (concat (map (fun v => fst (fst v)) V)) ->
  latent_hinges T E u (concat (map (fun v => fst (fst v)) V)) vs ->
  lsum (concat (map snd V)) - lsum vs <= ofN (length (concat (map (fun v => fst (fst v)) V))) * (R * D) /\
  lsum vs - lsum (concat (map snd V)) <= ofN (length (concat (map (fun v => fst (fst v)) V))) * (R * D).
Proof.
  intros Hu HR0 HD. induction V as [|[[B s1] ss] V IH]; intros st vs HV HL HRL HF HS.
  - inversion HS; subst. cbn [map concat lsum length]. rewrite ofN_0. replace (0 * (R * D)) with 0 by ring. split; qclra.
  - cbn [map fst snd concat] in *. cbn [par_batches par_looked_at] in *. destruct HV as [_ [[cs [dj [V1 [V2 _]]]] V3]].
    apply Forall2_app_inv_l in HS. destruct HS as [v1 [v2 [S1 [S2 ->]]]].
    inversion HL as [|x0 l0 [A1 [A2 [A3 A4]]] A5]; subst x0 l0. apply Forall_app in HRL. destruct HRL as [L1 L2]. apply Forall_app in HF. destruct HF as [F1 F2].
    assert (A4' := A4). apply Forall_app in A4'. destruct A4' as [X1 X2].
    assert (SB := batch_slacks T E d m (sg_w st) HR A1 B cs X1 L1 V1). rewrite <- V2 in SB.
    destruct (batch_gap (sg_w st) u R D A1 Hu HR0 HD A2 A3 B ss v1 X1 F1 SB S1) as [B1 B2].
    destruct (IH s1 v2 V3) as [C1 C2].
    { apply Forall_impl with (2 := A5). intros v [D1 [D2 [D3 D4]]]. repeat (split; [assumption|]). apply Forall_app in D4. exact (proj2 D4). }
    { exact L2. } { exact F2. } { exact S2. }
    rewrite app_length, ofN_plus, !lsum_app. 
    set (k1 := ofN (length B)) in *. set (k2 := ofN (length (concat (map (fun v => fst (fst v)) V)))) in *. replace ((k1 + k2) * (R * D)) with (k1 * (R * D) + k2 * (R * D)) by ring.
    set (q1 := k1 * (R * D)) in *. set (q2 := k2 * (R * D)) in *. clearbody q1 q2. split; qclra.
Qed.
Lemma par_gap prm n lr R D V st vs : 0 <= sg_C prm -> length (sg_self (par_end st V)) = d -> 0 <= R -> 0 <= D ->
  par_batches prm m n lr st V ->
  Forall (fun v => length v = d /\ normsq (vsub v (sg_self (par_end st V))) <= D * D /\ Forall (latent_exact m T E d v) (concat (map (fun v => fst (fst v)) V))) (par_looked_at st V) ->
  Forall (right_loss m T E) (concat (map (fun v => fst (fst v)) V)) -> Forall (spread R) (concat (map (fun v => fst (fst v)) V)) ->
  latent_hinges T E (sg_self (par_end st V)) (concat (map (fun v => fst (fst v)) V)) vs ->
  par_entry (sg_C prm) st V - primal_value (sg_C prm) (sg_self (par_end st V)) vs <= sg_C prm * (ofN (length (concat (map (fun v => fst (fst v)) V))) * (R * D)) /\
  primal_value (sg_C prm) (sg_self (par_end st V)) vs - par_entry (sg_C prm) st V <= sg_C prm * (ofN (length (concat (map (fun v => fst (fst v)) V))) * (R * D)).
Proof.
  intros HC Hu HR0 HD HV HL HRL HF HS. destruct (par_slacks prm n lr (sg_self (par_end st V)) R D Hu HR0 HD V st vs HV) as [A1 A2]; [|exact HRL|exact HF|exact HS|].
  { apply Forall_impl with (2 := HL). intros v [B1 [B2 B3]]. split; [exact B1|]. split; [exact B2|]. split; [|exact B3].
    replace (normsq (vsub (sg_self (par_end st V)) v)) with (normsq (vsub v (sg_self (par_end st V)))); [exact B2|]. rewrite !QPProofs.normsq_vsub by congruence. rewrite (dot_comm v). ring. }
  unfold par_entry, primal_value. set (nn := normsq (sg_self (par_end st V)) / (1 + 1)). clearbody nn.
  set (b := ofN (length (concat (map (fun v => fst (fst v)) V))) * (R * D)) in *. set (q1 := lsum (concat (map snd V))) in *. set (q2 := lsum vs) in *. clearbody q1 q2 b.
  split.
  - replace (sg_C prm * q1 + nn - (sg_C prm * q2 + nn)) with ((q1 - q2) * sg_C prm) by ring. rewrite (Qcmult_comm (sg_C prm) b). apply Qcmult_le_compat_r; assumption.
  - replace (sg_C prm * q2 + nn - (sg_C prm * q1 + nn)) with ((q2 - q1) * sg_C prm) by ring. rewrite (Qcmult_comm (sg_C prm) b). apply Qcmult_le_compat_r; assumption.
Qed.
End Gap.

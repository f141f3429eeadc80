From Coq Require Import ZArith Permutation.
From Verif Require Import Model.Subgradient Proofs.Arrays Proofs.LossProofs Proofs.CRFProofs Proofs.LearnerProofs Proofs.QPProofs
  Proofs.NSlackProofs5 Proofs.OneSlackProofs Proofs.OneSlackProofs2 Proofs.SubgradientProofs Proofs.SubgradientProofs2 Spec.SubgradientSpec.

(** ** online epochs *)
Definition final_of {X Y} (st : sg_state) (V : list (X * Y * sg_state)) : sg_state := last (map snd V) st.
Lemma visits_app {X Y} prm (m : smodel X Y) n lr V1 : forall st V2, sg_visits prm m n lr st V1 -> sg_visits prm m n lr (final_of st V1) V2 ->
  sg_visits prm m n lr st (V1 ++ V2).
Proof.
  induction V1 as [|[p s] V1 IH]; intros st V2 H1 H2; [exact H2|]. destruct H1 as [A B]. cbn [app]. split; [exact A|]. apply IH; [exact B|].
  unfold final_of in H2. cbn [map snd] in H2. rewrite last_cons in H2. exact H2.
Qed.
Lemma final_app {X Y} (st : sg_state) (V1 V2 : list (X * Y * sg_state)) : final_of st (V1 ++ V2) = final_of (final_of st V1) V2.
Proof. unfold final_of. rewrite map_app. apply last_app. Qed.
Lemma online_visits {X Y} prm (m : smodel X Y) n lr S : forall st pos st' pos', sg_online prm m n lr S st pos = Ok (st', pos') ->
  exists V, map fst V = S /\ sg_visits prm m n lr st V /\ final_of st V = st'.
Proof.
  induction S as [|p S IH]; intros st pos st' pos' H; cbn [sg_online] in H.
  - injection H as <- <-. exists []. repeat split; reflexivity.
  - apply bind_ok in H. destruct H as [[s b] [A H]]. apply IH in H. destruct H as [V [E1 [E2 E3]]]. exists ((p, s) :: V).
    cbn [map fst]. split; [congruence|]. split; [split; [eauto|exact E2]|]. unfold final_of in *. cbn [map snd]. rewrite last_cons. exact E3.
Qed.
Lemma online_epoch {X Y} prm (bm : bmodel X Y) lr S st : online_mode prm ->
  sg_epoch prm bm lr S st = sg_online prm (bm_s bm) (length S) lr S st 0.
Proof. intros [E1 E2]. unfold sg_epoch, sg_sequential. rewrite E1. cbn [Z.eqb]. destruct E2 as [-> | ->]; reflexivity. Qed.
Lemma online_loop_visits {X Y} prm (bm : bmodel X Y) lr shuf (P : X * Y -> Prop) k : online_mode prm ->
  (forall it S, length (shuf it S) = length S /\ (Forall P S -> Forall P (shuf it S))) ->
  forall it S st c st' c' S', Forall P S -> sg_loop prm bm lr shuf k it S st c = Ok (st', c', S') ->
  exists V, Forall (fun q => P (fst q)) V /\ sg_visits prm (bm_s bm) (length S) lr st V /\ final_of st V = st'.
Proof.
  intros HO HS. induction k as [|k IH]; intros it S st c st' c' S' HP H; cbn [sg_loop] in H.
  - injection H as <- <- <-. exists []. repeat split. constructor.
  - apply bind_ok in H. destruct H as [[st1 pos] [A H]]. rewrite online_epoch in A by auto. destruct (HS it S) as [L1 L2]. rewrite L1 in A.
    apply online_visits in A. destruct A as [V1 [E1 [E2 E3]]].
    assert (F1 : Forall (fun q => P (fst q)) V1). { apply L2 in HP. rewrite <- E1 in HP. rewrite Forall_map in HP. exact HP. }
    cbn [fst snd] in H. destruct ((pos =? 0)%Z && sg_break prm)%bool.
    + injection H as <- <- <-. exists V1. auto.
    + apply bind_ok in H. destruct H as [o [_ H]]. apply IH in H; [|apply L2; exact HP]. rewrite L1 in H. destruct H as [V2 [G1 [G2 G3]]].
      exists (V1 ++ V2). split; [apply Forall_app; auto|]. split; [apply visits_app; [exact E2|]; rewrite E3; exact G2|].
      rewrite final_app, E3. exact G3.
Qed.
Lemma visits_time {X Y} prm (m : smodel X Y) n lr V : forall st, sg_visits prm m n lr st V -> sg_t (final_of st V) = (sg_t st + length V)%nat.
Proof.
  induction V as [|[p s] V IH]; intros st H; [cbn; lia|]. destruct H as [[b A] H]. apply online_step_solve in A. destruct A as [yh [dj [sl [l [_ [A _]]]]]].
  apply solve_ok in A. destruct A as [_ [_ [_ [_ [_ [_ ET]]]]]]. unfold final_of in *. cbn [map snd]. rewrite last_cons, IH by auto. rewrite ET. cbn [length]. lia.
Qed.

Section fit.
Context {X Y : Type} (T : task X Y) (d : nat) (prm : sg_params) (R2 : Qc).
Notation spread := (spread T R2).
Hypothesis HC : 0 < sg_C prm.
Hypothesis HM : sg_momentum prm = 0.
Hypothesis HD : sg_decay prm = 1%nat.
Hypothesis HT : 1 <= sg_t0 prm.
Hypothesis HR : 0 <= R2.
Hypothesis HLR : sg_lr prm = None.

(** the whole of fit: online *)
Lemma fit_online_regret (bm : bmodel X Y) shuf S L' : (0 < length S)%nat -> sm_size (bm_s bm) = d -> online_mode prm ->
  (forall it S, Permutation (shuf it S) S) -> oracle_exact (bm_s bm) T d S -> Forall spread S ->
  sg_fit prm bm shuf false S sg_new = Ok L' ->
  let K := sg_C prm * ofN (length S) in let st0 := SGState (vzero d) (vzero d) (vzero d) 0 in
  exists V, sg_visits prm (bm_s bm) (length S) K st0 V /\ Forall (fun q => In (fst q) S) V /\ length V = sl_t L' /\
    forall u hs hu, length u = d -> visit_hinges T (befores st0 V) hs -> visit_hinges T (map (fun q => (fst q, u)) V) hu ->
      online_cost K (befores st0 V) hs <= online_cost K (map (fun q => (fst q, u)) V) hu +
        (sg_t0 prm - 1) * normsq u / (1 + 1) + (1 + 1) * (K * K * R2) * harmonic (sg_t0 prm) 0 (length V).
Proof.
  intros Hn Hd HO HS HE HSp H K st0. apply fit_split in H. destruct H as [lr [c0 [st [c [S' [o [[E1 ->] [E2 [_ ->]]]]]]]]].
  rewrite HLR in E1. subst lr. fold K in E2. unfold fit_start in E2. cbn [sg_new sl_fitted sl_t] in E2. rewrite Hd in E2. fold st0 in E2.
  apply (online_loop_visits prm bm K shuf (fun p => In p S)) in E2; auto.
  - destruct E2 as [V [F1 [F2 F3]]]. exists V. split; [exact F2|]. split; [exact F1|]. cbn [sl_t].
    split. { rewrite <- F3. rewrite (visits_time prm (bm_s bm) (length S) K V st0 F2). reflexivity. }
    intros u hs hu Hu H1 H2.
    assert (G := online_regret T d prm HC HM HD HT (length S) Hn (bm_s bm) R2 V st0).
    assert (SH : shaped d st0) by (split; [|split]; apply vzero_length).
    assert (NW : normsq (sg_w st0) <= sg_C prm * ofN (length S) * (sg_C prm * ofN (length S)) * R2).
    { unfold normsq. cbn [sg_w st0]. rewrite dot_vzero_l. apply Qcmult_nonneg; [apply Qc_sq_nonneg|exact HR]. }
    assert (FV : Forall (fun q => implements (bm_s bm) T d (fst (fst q)) (snd (fst q)) /\
       (forall w, length w = d -> exact_laug (bm_s bm) T w (fst (fst q)) (snd (fst q))) /\ spread (fst q)) V).
    { eapply Forall_impl; [|exact F1]. intros q Hq. destruct (HE _ Hq) as [A1 A2]. rewrite Forall_forall in HSp. auto. }
    specialize (G SH NW FV F2 u hs hu Hu H1 H2). fold K in G.
    assert (NU : normsq (vsub (sg_w st0) u) = normsq u).
    { cbn [sg_w st0]. unfold normsq. assert (L := vzero_length d). rewrite dot_vsub_l, !dot_vsub_r by congruence. rewrite !dot_vzero_l, dot_vzero_r. ring. }
    rewrite NU in G. cbn [sg_t st0] in G. rewrite ofN_0 in G.
    replace (0 + sg_t0 prm - 1) with (sg_t0 prm - 1) in G by ring.
    set (a := online_cost K (befores _ _) hs) in *. set (b := online_cost _ _ hu) in *. set (x := (sg_t0 prm - 1) * normsq u / (1 + 1)) in *.
    set (y := (1 + 1) * (K * K * R2) * _) in *. clearbody a b x y. qclra.
  - intros it S0. split; [apply Permutation_length, HS|]. intro F. eapply Permutation_Forall; [apply Permutation_sym, HS|exact F].
  - apply Forall_forall. auto.
Qed.

(** ** full batch *)
Lemma vsub_vadd a b a' b' : length a = length b -> length a' = length a -> length b' = length a -> vsub (vadd a b) (vadd a' b') = vadd (vsub a a') (vsub b b').
Proof.
  intros H1 H2 H3. assert (length (vadd a b) = length a) by (apply vadd_length; auto). assert (length (vadd a' b') = length a) by (rewrite vadd_length; congruence).
  assert (length (vsub a a') = length a) by (apply vsub_length; auto). assert (length (vsub b b') = length a) by (rewrite vsub_length; congruence).
  apply vec_ext. { rewrite (vsub_length (vadd a b)), (vadd_length (vsub a a')) by congruence. congruence. }
  intros i _. rewrite get1_vsub, !get1_vadd, !get1_vsub by congruence. ring.
Qed.
Lemma sq_sum_step a b k : length a = length b -> normsq a <= R2 -> normsq b <= ofN k * ofN k * R2 -> (k = O -> normsq b <= 0) ->
  normsq (vadd a b) <= ofN (S k) * ofN (S k) * R2.
Proof.
  intros HL HA HB HZ. rewrite ofN_S. unfold normsq in *. rewrite dot_vadd_l, !dot_vadd_r by auto. rewrite (dot_comm b a).
  assert (CS := cauchy_schwarz a b HL). unfold normsq in CS. assert (NA := normsq_nonneg a). assert (NB := normsq_nonneg b). unfold normsq in NA, NB.
  assert (PK := ofN_nonneg k).
  assert (AB : dot a b <= ofN k * R2).
  { destruct (Qcleb_spec (dot a b) (ofN k * R2)) as [Q|Q]; [exact Q|]. exfalso.
    assert (P0 : 0 <= ofN k * R2) by (apply Qcmult_nonneg; auto).
    assert (S1 : ofN k * R2 * (ofN k * R2) < dot a b * dot a b).
    { apply Qcle_lt_trans with (dot a b * (ofN k * R2)); [apply Qcmult_le_compat_r; [apply Qclt_le_weak; exact Q|exact P0]|].
      rewrite (Qcmult_comm (dot a b)). apply Qcmult_lt_compat_r; [eapply Qcle_lt_trans; eauto|exact Q]. }
    assert (S2 : dot a a * dot b b <= R2 * (ofN k * ofN k * R2)).
    { apply Qcle_trans with (R2 * dot b b); [apply Qcmult_le_compat_r; auto|]. rewrite !(Qcmult_comm R2). apply Qcmult_le_compat_r; auto. }
    replace (ofN k * R2 * (ofN k * R2)) with (R2 * (ofN k * ofN k * R2)) in S1 by ring.
    revert S1. apply Qcle_not_lt. eapply Qcle_trans; eauto. }
  replace ((1 + ofN k) * (1 + ofN k) * R2) with (R2 + (ofN k * R2 + ofN k * R2) + ofN k * ofN k * R2) by ring. qclra.
Qed.
Lemma delta_bound : forall Xs Ys Yh, good T d Xs Ys -> labelling T Xs Yh -> Forall spread (combine Xs Ys) ->
  normsq (vsub (feat_sum T d Xs Ys) (feat_sum T d Xs Yh)) <= ofN (length Xs) * ofN (length Xs) * R2.
Proof.
  induction Xs as [|x Xs IH]; intros [|y Ys] Yh G HL HS; try (destruct G as [L _]; discriminate L); inversion HL; subst.
  - unfold feat_sum. cbn [combine map fold_right length]. rewrite ofN_0. unfold normsq. assert (L := vzero_length d). rewrite dot_vsub_l, dot_vzero_l by congruence. replace (0 - 0) with 0 by ring. replace (0 * 0 * R2) with 0 by ring. apply Qcle_refl.
  - assert (G' := good_cons _ _ _ _ _ _ G). cbn [combine] in HS. apply Forall_cons_iff in HS. destruct HS as [HS1 HS2].
    assert (LA := good_label _ _ _ _ G'). assert (L1 := feat_sum_length T d Xs Ys Ys G' LA). assert (L2 := feat_sum_length T d Xs Ys l' G' H3).
    destruct G as [_ G]. destruct (G (x, y) (or_introl eq_refl)) as [G1 [_ G2]]. cbn [fst snd] in *.
    unfold feat_sum. cbn [combine map fold_right fst snd length]. fold (feat_sum T d Xs Ys). fold (feat_sum T d Xs l').
    rewrite vsub_vadd by (rewrite ?L1, ?L2; rewrite ?G2; auto). apply sq_sum_step.
    + rewrite !vsub_length; rewrite ?L1, ?L2, ?G2; auto.
    + apply HS1. assumption.
    + apply IH; auto.
    + intro Z. assert (Q := IH Ys l' G' H3 HS2). rewrite Z in Q. rewrite ofN_0 in Q. replace (0 * 0 * R2) with 0 in Q by ring. exact Q.
Qed.

Context (bm : bmodel X Y) (S : list (X * Y)).
Hypothesis Hn : (0 < length S)%nat.
Hypothesis Hd : sm_size (bm_s bm) = d.
Hypothesis HRS : sm_rescale (bm_s bm) = false.
Hypothesis HB : batch_exact bm T d (map fst S) (map snd S).
Hypothesis HSp : Forall spread S.
Let K := sg_C prm * ofN (length S).
Lemma S_nil : S <> [].
Proof. intro E. rewrite E in Hn. cbn in Hn. lia. Qed.

Lemma full_epoch lr st : full_batch prm -> sg_epoch prm bm lr S st =
  let! st := sg_mini_step prm bm (length S) lr S st in Ok (st, (-1)%Z).
Proof.
  intros [E1 E2]. unfold sg_epoch, sg_sequential. rewrite E1, E2. cbn [Z.eqb Pos.eqb bind sg_mini].
  destruct (sg_mini_step prm bm (length S) lr S st); reflexivity.
Qed.
Lemma full_step st : shaped d st -> normsq (sg_w st) <= K * K * R2 ->
  exists st' g, sg_mini_step prm bm (length S) K S st = Ok st' /\ shaped d st' /\ strong_subgradient T d (sg_C prm) S (sg_w st) g /\
    sg_w st' = vsub (sg_w st) (vscale (/ (ofN (sg_t st) + sg_t0 prm)) g) /\ sg_t st' = Datatypes.S (sg_t st) /\
    sg_self st' = sg_expose (sg_avg prm) (sg_t st) (sg_self st) (sg_w st') /\
    normsq (sg_w st') <= K * K * R2 /\ normsq g <= (1 + 1 + 1 + 1) * (K * K * R2).
Proof.
  intros SH HN. destruct (mini_step_dir T d prm HC bm (length S) K S st Hn S_nil HRS HB (always_step prm HC HT (length S) Hn (sg_t st)) SH HM) as [st' [g [E1 [E2 [[E3 [E3' E3'']] [E4 [Yh [LY EG]]]]]]]].
  exists st', g. split; [exact E1|]. split; [exact E2|].
  assert (NZ := ofN_neq0 _ Hn).
  assert (EC : sg_C prm * ofN (length S) / ofN (length S) = sg_C prm) by (set (z := ofN (length S)) in *; clearbody z; field; exact NZ).
  rewrite EC in E4, EG. split; [exact E4|]. fold K in E3. rewrite (rate_pegasos prm HC HD HT (length S) Hn) in E3. split; [exact E3|]. split; [exact E3''|]. split; [exact E3'|].
  assert (G : good T d (map fst S) (map snd S)) by (eapply batch_good; apply HB).
  set (dl := vsub (feat_sum T d (map fst S) (map snd S)) (feat_sum T d (map fst S) Yh)) in *.
  assert (LD : length dl = d) by (unfold dl; rewrite vsub_length; rewrite !(feat_sum_length T d (map fst S) (map snd S)); auto; eapply good_label; eauto).
  assert (EG' : g = vsub (sg_w st) (vscale K (vscale (/ ofN (length S)) dl))).
  { rewrite EG. f_equal. apply vec_ext. { rewrite !vscale_length. reflexivity. } intros i _. rewrite !get1_vscale. unfold K.
    set (z := ofN (length S)) in *. clearbody z. field. exact NZ. }
  assert (ND : normsq (vscale (/ ofN (length S)) dl) <= R2).
  { unfold normsq. rewrite dot_vscale_l, dot_vscale_r. fold (normsq dl).
    assert (DB := delta_bound (map fst S) (map snd S) Yh G LY). rewrite split_pairs in DB. specialize (DB HSp). rewrite map_length in DB. fold dl in DB.
    assert (PI : 0 <= / ofN (length S)) by (apply Qclt_le_weak, Qcinv_pos, ofN_pos; exact Hn).
    apply Qcle_trans with (/ ofN (length S) * (/ ofN (length S) * (ofN (length S) * ofN (length S) * R2))).
    - rewrite !(Qcmult_comm (/ ofN (length S))). repeat apply Qcmult_le_compat_r; auto.
    - match goal with |- ?a <= ?b => replace a with b; [apply Qcle_refl|] end. set (z := ofN (length S)) in *. clearbody z. field. exact NZ. }
  assert (SN := step_norms d prm (length S) R2 (sg_w st) (vscale (/ ofN (length S)) dl) (ofN (sg_t st) + sg_t0 prm) (proj1 SH) ltac:(rewrite vscale_length; exact LD) (time_ge prm HT _) ND HN).
  fold K in SN. cbv zeta in SN. rewrite <- EG', <- E3 in SN. exact SN.
Qed.
Lemma objective_hinges w : length w = d -> exists hs, hinges T w S hs /\ sg_objective prm bm S w = Ok (primal_value (sg_C prm) w hs).
Proof.
  intro Hw. unfold sg_objective. assert (HO : oracle_exact (bm_s bm) T d S). { destruct HB as [_ [HO _]]. rewrite split_pairs in HO. exact HO. }
  destruct (objective_value (bm_s bm) T d w (map fst S) (map snd S) (sg_C prm) NSlack) as [hs [A B]].
  - rewrite !map_length. reflexivity.
  - intro E. apply map_eq_nil in E. apply S_nil. exact E.
  - exact Hw.
  - intros p Hp. rewrite split_pairs in Hp. destruct (HO p Hp) as [A1 A2]. auto.
  - rewrite split_pairs in A. exists hs. split; [exact A|exact B].
Qed.

Lemma full_loop : full_batch prm -> sg_avg prm = AvgNone -> forall k it st c, shaped d st -> sg_self st = sg_w st -> normsq (sg_w st) <= K * K * R2 ->
  exists st' os, sg_loop prm bm K (fun _ S => S) k it S st c = Ok (st', c ++ os, S) /\ length os = k /\ shaped d st' /\ sg_self st' = sg_w st' /\
    forall u hs hu, length u = d -> hinges T (sg_w st) S hs -> hinges T u S hu ->
      (exists hf, hinges T (sg_w st') S hf /\ last (primal_value (sg_C prm) (sg_w st) hs :: os) 0 = primal_value (sg_C prm) (sg_w st') hf) /\
      lsum (firstn k (primal_value (sg_C prm) (sg_w st) hs :: os)) - ofN k * primal_value (sg_C prm) u hu <=
      (ofN (sg_t st) + sg_t0 prm - 1) * normsq (vsub (sg_w st) u) / (1 + 1) + (1 + 1) * (K * K * R2) * harmonic (sg_t0 prm) (sg_t st) k.
Proof.
  intros HF HA. induction k as [|k IH]; intros it st c SH SS HN; cbn [sg_loop].
  - exists st, []. rewrite app_nil_r. split; [reflexivity|]. split; [reflexivity|]. split; [exact SH|]. split; [exact SS|]. intros u hs hu Hu H1 H2.
    split; [exists hs; auto|]. cbn [firstn lsum]. rewrite ofN_0. unfold harmonic. cbn [seq map lsum].
    assert (P := time_ge prm HT (sg_t st)). assert (Q := Qchalf_nonneg _ (normsq_nonneg (vsub (sg_w st) u))).
    assert (Q2 : 0 <= (ofN (sg_t st) + sg_t0 prm - 1) * (normsq (vsub (sg_w st) u) / (1 + 1))) by (apply Qcmult_nonneg; [qclra|exact Q]).
    unfold Qcdiv in *. rewrite Qcmult_assoc in Q2.
    match goal with |- _ <= ?z + _ * 0 => replace (z + (1 + 1) * (K * K * R2) * 0) with z by ring; replace (0 - 0 * primal_value (sg_C prm) u hu) with 0 by ring; exact Q2 end.
  - destruct (full_step st SH HN) as [st1 [g [E1 [E2 [E3 [E4 [E5 [E6 [E7 E8]]]]]]]]]. rewrite HA in E6. cbn [sg_expose] in E6.
    rewrite full_epoch by auto. rewrite E1. cbn [bind fst snd]. cbn [Z.eqb andb].
    destruct (objective_hinges (sg_self st1)) as [hs1 [F1 F2]]. { rewrite E6. apply E2. }
    rewrite F2. cbn [bind]. destruct (IH (Datatypes.S it) st1 (c ++ [primal_value (sg_C prm) (sg_self st1) hs1]) E2 E6 E7) as [st' [os [G1 [G2 [G3 [G4 G5]]]]]].
    rewrite G1. rewrite E6 in F1, F2, G1 |- *. exists st', (primal_value (sg_C prm) (sg_w st1) hs1 :: os). split; [rewrite <- app_assoc; reflexivity|].
    split; [cbn; congruence|]. split; [exact G3|]. split; [exact G4|]. intros u hs hu Hu H1 H2.
    destruct (G5 u hs1 hu Hu F1 H2) as [G6 G7]. split; [rewrite (last_cons _ (primal_value (sg_C prm) (sg_w st) hs)); rewrite (last_cons _ _ (primal_value (sg_C prm) (sg_w st) hs)); rewrite last_cons in G6; exact G6|].
    assert (OS := one_step_regret T d S (sg_C prm) (sg_w st) (sg_w st1) g (ofN (sg_t st) + sg_t0 prm) u hs hu (time_ge prm HT _) (proj1 SH) Hu E3 E4 H1 H2).
    cbn [firstn lsum]. change (firstn k (primal_value (sg_C prm) (sg_w st1) hs1 :: os)) with (firstn k (primal_value (sg_C prm) (sg_w st1) hs1 :: os)).
    rewrite harmonic_S, ofN_S. rewrite E5, ofN_S in G7.
    assert (PS := time_pos prm HT (sg_t st)). assert (NZ := time_nz prm HT (sg_t st)). set (s := ofN (sg_t st) + sg_t0 prm) in *.
    replace (1 + ofN (sg_t st) + sg_t0 prm - 1) with s in G7 by (unfold s; ring).
    set (D := normsq (vsub (sg_w st) u)) in *. set (D' := normsq (vsub (sg_w st1) u)) in *. set (B := K * K * R2) in *.
    clear G5. set (H := harmonic (sg_t0 prm) (Datatypes.S (sg_t st)) k) in *. set (pu := primal_value (sg_C prm) u hu) in *.
    assert (GB : normsq g / ((1 + 1) * s) <= (1 + 1) * B * / s).
    { unfold Qcdiv. assert (P2 : 0 < (1 + 1) * s) by (apply Qcmult_pos; [reflexivity|exact PS]).
      eapply Qcle_trans; [apply Qcmult_le_compat_r; [exact E8|apply Qclt_le_weak, Qcinv_pos; exact P2]|].
      match goal with |- ?a <= ?b => replace a with b; [apply Qcle_refl|] end. assert (N3 : 1 + 1 <> 0) by discriminate. set (two := 1 + 1) in *. replace (two + 1 + 1) with (two * two) by (unfold two; ring). clearbody two s B. field. split; auto. }
    assert (EX : ((s - 1) * D - s * D') / (1 + 1) = (s - 1) * D / (1 + 1) - s * D' / (1 + 1)) by (unfold Qcdiv; ring).
    rewrite EX in OS. replace ((1 + 1) * B * (/ s + H)) with ((1 + 1) * B * / s + (1 + 1) * B * H) by ring.
    replace ((1 + ofN k) * pu) with (pu + ofN k * pu) by ring.
    set (x0 := ofN k * pu) in *.
    set (x1 := (1 + 1) * B * / s) in *. set (x2 := (1 + 1) * B * H) in *. set (x3 := s * D' / (1 + 1)) in *. set (x4 := (s - 1) * D / (1 + 1)) in *.
    set (x5 := normsq g / ((1 + 1) * s)) in *. set (y1 := lsum (firstn k _)) in *. set (a := primal_value (sg_C prm) (sg_w st) hs) in *.
    clearbody x0 x1 x2 x3 x4 x5 y1 a pu. qclra.
Qed.

Lemma fit_full_regret : full_batch prm -> sg_avg prm = AvgNone ->
  exists w lr c, sg_fit prm bm (fun _ S => S) false S sg_new = Ok (SGLearner (sg_max_iter prm) (Some (w, lr, c))) /\
    length w = d /\ length c = Datatypes.S (sg_max_iter prm) /\
    (exists hf, hinges T w S hf /\ last c 0 = primal_value (sg_C prm) w hf) /\
    forall u h0 hu, length u = d -> hinges T (vzero d) S h0 -> hinges T u S hu ->
      lsum (firstn (sg_max_iter prm) (primal_value (sg_C prm) (vzero d) h0 :: c)) <=
      ofN (sg_max_iter prm) * primal_value (sg_C prm) u hu + (sg_t0 prm - 1) * normsq u / (1 + 1) +
      (1 + 1) * (K * K * R2) * harmonic (sg_t0 prm) 0 (sg_max_iter prm).
Proof.
  intros HF HA. set (st0 := SGState (vzero d) (vzero d) (vzero d) 0).
  assert (SH : shaped d st0) by (split; [|split]; apply vzero_length).
  assert (NW : normsq (sg_w st0) <= K * K * R2).
  { unfold normsq. cbn [sg_w st0]. rewrite dot_vzero_l. apply Qcmult_nonneg; [apply Qc_sq_nonneg|exact HR]. }
  destruct (full_loop HF HA (sg_max_iter prm) 0 st0 [] SH eq_refl NW) as [st' [os [E1 [E2 [E3 [E4 E5]]]]]].
  assert (R : reach prm (length S) K st0 st') by (eapply (loop_reach prm bm K (fun _ S => S)); [reflexivity|exact E1]).
  destruct R as [tr [HTr HL]]. destruct (trace_none prm (length S) K HA tr st0 eq_refl HTr) as [_ TT]. rewrite HL in TT.
  destruct (objective_hinges (sg_self st')) as [hf [F1 F2]]. { apply E3. }
  assert (TK : sg_t st' = sg_max_iter prm).
  { assert (X0 : forall k it st c st' os, sg_loop prm bm K (fun _ S => S) k it S st c = Ok (st', os, S) -> sg_t st' = (sg_t st + k)%nat).
    { clear - HF. induction k as [|k IH]; intros it st c st' os H; cbn [sg_loop] in H.
      - injection H as <- _. lia.
      - apply bind_ok in H. destruct H as [[s1 pos] [A H]]. rewrite full_epoch in A by auto. apply bind_ok in A. destruct A as [s2 [A A']]. injection A' as <- <-.
        cbn [fst snd Z.eqb andb] in H. apply bind_ok in H. destruct H as [o [_ H]]. apply IH in H. rewrite H. apply mini_step_solve in A. destruct A as [dj A].
        apply solve_ok in A. destruct A as [_ [_ [_ [_ [_ [_ ET]]]]]]. rewrite ET. lia. }
    rewrite (X0 _ _ _ _ _ _ E1). reflexivity. }
  exists (sg_self st'), K, (os ++ [primal_value (sg_C prm) (sg_self st') hf]). split; [|split; [apply E3|split]].
  - unfold sg_fit. cbn [sg_new sl_fitted sl_t]. rewrite HLR, Hd. cbn [bind fst snd]. fold K. fold st0. rewrite E1. cbn [app bind]. rewrite F2. cbn [bind]. rewrite TK. reflexivity.
  - rewrite app_length. cbn [length]. lia.
  - split. { exists hf. split; [exact F1|]. rewrite last_last. reflexivity. }
    intros u h0 hu Hu H1 H2. destruct (E5 u h0 hu Hu H1 H2) as [_ G].
    assert (NU : normsq (vsub (sg_w st0) u) = normsq u).
    { cbn [sg_w st0]. unfold normsq. assert (L := vzero_length d). rewrite dot_vsub_l, !dot_vsub_r by congruence. rewrite !dot_vzero_l, dot_vzero_r. ring. }
    rewrite NU in G. cbn [sg_t sg_w st0] in G. rewrite ofN_0 in G. replace (0 + sg_t0 prm - 1) with (sg_t0 prm - 1) in G by ring.
    rewrite app_comm_cons, firstn_app. cbn [length]. rewrite E2. replace (sg_max_iter prm - Datatypes.S (sg_max_iter prm))%nat with O by lia. cbn [firstn]. rewrite app_nil_r.
    set (a := lsum _) in *. set (b := ofN _ * _) in *. set (x := (sg_t0 prm - 1) * normsq u / (1 + 1)) in *.
    set (y := (1 + 1) * (K * K * R2) * _) in *. clearbody a b x y. qclra.
Qed.
End fit.

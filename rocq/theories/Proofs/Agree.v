(** Weights near the minimum are near each other and predict alike. *)
From Coq Require Import ZArith Permutation.
From Verif Require Import Model.FrankWolfe Spec.AgreeSpec Spec.CuttingPlaneSpec Proofs.NSlackProofs3 Proofs.OneSlackProofs2 Proofs.OneSlackProofs4 Proofs.FrankWolfeProofs Proofs.FrankWolfeProofs4
  Proofs.CuttingPlane2 Proofs.CuttingPlane3 Proofs.CuttingPlane4 Proofs.CuttingPlane5 Proofs.FWRate5 Proofs.SubgradientRate3 Proofs.SubgradientRate6.

Section agree.
Context {X Y : Type} (T : task X Y) (d : nat).

Lemma within_near C S w g : length w = d -> within T d C S w g -> near_minimal T d C S w g.
Proof. intros L [hs [H1 H2]]. split; [exact L|]. exists hs. split; [exact H1|exact H2]. Qed.
Lemma near_weaken C S w g g' : g <= g' -> near_minimal T d C S w g -> near_minimal T d C S w g'.
Proof.
  intros G [L [hs [H1 H2]]]. split; [exact L|]. exists hs. split; [exact H1|]. intros v hv Lv Hv. specialize (H2 v hv Lv Hv).
  set (a := primal_value C w hs) in *. set (b := primal_value C v hv) in *. clearbody a b. clear - G H2. qclra.
Qed.
Lemma winner_kept w v x yp D : (forall y', t_label T x y' -> length (t_feat T x y') = d) -> length w = d -> length v = d ->
  normsq (vsub w v) <= D -> clear_winner T w x yp D ->
  forall y', t_label T x y' -> y' <> yp -> dot v (t_feat T x y') < dot v (t_feat T x yp).
Proof.
  intros HF Lw Lv HD [LP HW] y' L NE. destruct (HW y' L NE) as [W1 W2]. clear HW. cbv zeta in W1, W2.
  assert (L1 := HF _ LP). assert (L2 := HF _ L).
  destruct (Qclt_le_dec (dot v (t_feat T x y')) (dot v (t_feat T x yp))) as [|B]; [assumption|exfalso].
  assert (CS := cauchy_schwarz (vsub w v) (vsub (t_feat T x yp) (t_feat T x y'))).
  specialize (CS ltac:(rewrite !vsub_length; congruence)). rewrite dot_vsub_l, !dot_vsub_r in CS by congruence.
  set (a := dot w (t_feat T x yp)) in *. set (b := dot w (t_feat T x y')) in *. set (p := dot v (t_feat T x yp)) in *. set (q := dot v (t_feat T x y')) in *.
  assert (N1 : 0 <= normsq (vsub (t_feat T x yp) (t_feat T x y'))) by apply normsq_nonneg.
  set (n1 := normsq (vsub w v)) in *. set (n2 := normsq (vsub (t_feat T x yp) (t_feat T x y'))) in *.
  assert (M : n1 * n2 <= D * n2) by (apply Qcmult_le_compat_r; assumption).
  assert (Q : (a - b) * (a - b) <= (a - b - (p - q)) * (a - b - (p - q))).
  { clearbody a b p q. clear - W1 B. assert (0 <= q - p) by qclra. assert (0 <= (a - b) * (q - p)) by (apply Qcmult_nonneg; qclra).
    assert (S2 : 0 <= (q - p) * (q - p)) by apply Qc_sq_nonneg.
    replace ((a - b - (p - q)) * (a - b - (p - q))) with ((a - b) * (a - b) + ((a - b) * (q - p) + (a - b) * (q - p)) + (q - p) * (q - p)) by ring.
    set (u := (a - b) * (a - b)) in *. set (u1 := (a - b) * (q - p)) in *. set (u2 := (q - p) * (q - p)) in *. clearbody u u1 u2. qclra. }
  assert (R : (a - b) * (a - b) <= n1 * n2).
  { eapply Qcle_trans; [exact Q|]. eapply Qcle_trans; [|exact CS]. apply Qcle_refl. }
  apply (Qclt_not_le _ _ W2). eapply Qcle_trans; [exact R|exact M].
Qed.
Lemma winner_predicted (m : smodel X Y) w v x yp D : (forall y', t_label T x y' -> length (t_feat T x y') = d) -> length w = d -> length v = d ->
  normsq (vsub w v) <= D -> clear_winner T w x yp D -> (forall a b : Y, a = b \/ a <> b) -> exact_inference m T v x -> sm_inference m x v = Ok yp.
Proof.
  intros HF Lw Lv HD HW DEC [yq [E [LQ B]]]. destruct (DEC yq yp) as [->|NE]; [exact E|exfalso].
  assert (K := winner_kept w v x yp D HF Lw Lv HD HW yq LQ NE). apply (Qclt_not_le _ _ K). apply B. apply HW.
Qed.
Lemma winner_weaken w x yp D D' : D' <= D -> clear_winner T w x yp D -> clear_winner T w x yp D'.
Proof.
  intros HD [L HW]. split; [exact L|]. intros y' L' NE. destruct (HW y' L' NE) as [A B]. cbv zeta in *. split; [exact A|].
  eapply Qcle_lt_trans; [|exact B]. apply Qcmult_le_compat_r; [exact HD|apply normsq_nonneg].
Qed.

Lemma one_near (ceq : Y -> Y -> res bool) solve prm Xs Ys R2 L bm sw st reason :
  let K := o_C prm * ofN (length Xs) in
  (0 < length Xs)%nat -> 0 < o_C prm -> 0 < o_tol prm -> 0 < R2 -> o_window prm = O -> o_neg prm = None -> qp_exact solve ->
  (forall p y', In p (combine Xs Ys) -> t_label T (fst p) y' ->
     normsq (vsub (t_feat T (fst p) (snd p)) (t_feat T (fst p) y')) <= R2 /\ t_loss T (snd p) y' <= L) ->
  batch_exact bm T d Xs Ys -> o_cache prm = O \/ sm_rescale (bm_s bm) = false ->
  (forall b, sw = Some b -> batch_exact b T d Xs Ys /\ (o_cache prm = O \/ sm_rescale (bm_s b) = false)) ->
  K * L + qp_reg * (K * K) / (1 + 1)
    < ofN (o_max_iter prm - 1 - (if sw then 1 else 0)) * (gain K (o_tol prm) R2 - qp_reg * (K * K) / (1 + 1)) ->
  os_fit ceq solve prm bm sw Xs Ys Cold = Ok (st, reason) ->
  near_minimal T d (o_C prm) (combine Xs Ys) (o_w st) (K * o_tol prm + qp_reg * (K * K)).
Proof.
  intros K H1 H2 H3 H4 H5 H6 H7 H8 H9 H10 H11 H12 H13.
  assert (HL : length (o_w st) = d).
  { apply (fit1_lower_bound T d ceq solve prm Xs Ys bm sw st reason H1 (Qclt_le_weak _ _ H2) (qp_exact_sound _ H7)); [|  |exact H13].
    - split; [apply H9|exact H10].
    - intros b Eb. destruct (H11 b Eb) as [A B]. split; [apply A|exact B]. }
  destruct (one_converges T d ceq solve prm Xs Ys R2 L bm sw H1 H2 H3 H4 H5 H6 H7 H8 st reason H9 H10 H11 H12 H13) as [_ [hs [A B]]].
  split; [exact HL|]. exists hs. split; [exact A|]. intros v hv Lv Hv. rewrite Qcplus_assoc. exact (B v hv Lv Hv).
Qed.
Lemma n_near yeq solve prm (m : smodel X Y) sw Xs Ys labs old st curve primal reason :
  0 <= ns_C prm -> length Xs = length Ys -> sm_size m = d ->
  oracle_exact m T d (combine Xs Ys) -> (forall m', sw = Some m' -> oracle_exact m' T d (combine Xs Ys)) ->
  ns_window prm = O -> ns_neg prm = None -> ns_tol prm <= 0 -> qp_exact solve ->
  answers_all solve (ns_C prm) (length Xs) T (combine Xs Ys) ->
  (forall a, yeq a a = true) -> yeq_ok T yeq (combine Xs Ys) -> zero_loss_same T (combine Xs Ys) ->
  (forall p y', In p (combine Xs Ys) -> t_label T (fst p) y' -> In y' (labs p)) ->
  (list_sum (map (fun p => length (labs p)) (combine Xs Ys)) + (if sw then 1 else 0) < ns_max_iter prm)%nat ->
  ns_fit yeq solve prm m sw Xs Ys None old = Ok (st, curve, primal, reason) ->
  near_minimal T d (ns_C prm) (combine Xs Ys) (st_w st) (n_gap (ns_C prm) (length Xs)).
Proof.
  intros H1 H2 H3 H4 H5 H6 H7 H8 H9 H10 H11 H12 H13 H14 H15 H16.
  assert (HL : length (st_w st) = d).
  { apply (fit_lower_bound T d yeq solve prm m sw Xs Ys H1 H2 H3 (NSlackProofs3.exact_is_ok m T d _ H4) (fun m' E => NSlackProofs3.exact_is_ok m' T d _ (H5 m' E)) old st curve primal reason (qp_exact_sound _ H9) H16). }
  destruct (many_converges T d yeq solve prm m sw Xs Ys labs old st curve primal reason H1 H2 H3 H4 H5 H6 H7 H8 H9 H10 H11 H12 H13 H14 H15 H16) as [_ B].
  split; [exact HL|]. assert (H := hinges_hv T d m _ (st_w st) H4 HL). exists (map (hv T m (st_w st)) (combine Xs Ys)). split; [exact H|]. intros v hv Lv Hv.
  unfold n_gap. rewrite Qcplus_assoc. exact (B _ v hv H Lv Hv).
Qed.
Lemma fw_near C tol check avg Xs Ys (bm : bmodel X Y) R L :
  (0 < length Xs)%nat -> 0 <= C -> fw_usable T d Xs Ys bm -> batch_exact bm T d Xs Ys -> bounded T R L (combine Xs Ys) -> 0 < tol -> (0 < check)%nat ->
  exists N, forall max_iter sched, (N <= max_iter)%nat -> passes (length Xs) sched ->
  exists w l p c, fw_fit (FWParams C max_iter tol false true check avg) bm Xs Ys sched None = Ok (w, l, p, c) /\ near_minimal T d C (combine Xs Ys) w tol.
Proof.
  intros H1 H2 H3 H4 H5 H6 H7. destruct (rate_exists T d C tol check avg Xs Ys bm R L H1 H2 H3 H4 H5 H6 H7) as [N HN]. exists N. intros mi sched LE HP.
  destruct (HN mi sched LE HP) as [w [l [p [c [Pv [Dv [E [_ [_ W]]]]]]]]]. exists w, l, (p ++ [Pv; Pv]), (c ++ [Dv; Dv]). split; [exact E|]. apply within_near; [|exact W].
  destruct (fw_fit_bounds T d (FWParams C mi tol false true check avg) Xs Ys bm H1 H2 H3 sched w l _ _ E) as [_ [F _]]. specialize (F eq_refl). apply (feasible_length T d _ _ _ _) with (2 := F).
  apply Forall_forall. intros q Hq. destruct H4 as [_ [O _]]. destruct (proj1 (O q Hq)) as [A [B D]]. split; [exact A|]. split; [exact B|]. intros y' Ly. apply (D y' Ly).
Qed.

Lemma near_pairs (m : smodel X Y) C S l : 0 <= C -> oracle_exact m T d S -> Forall (fun a => near_minimal T d C S (fst a) (snd a)) l -> close_pairs l.
Proof. intros HC HO HF a b Ia Ib. rewrite Forall_forall in HF. exact (near_close T d m C S _ _ _ _ HC HO (HF a Ia) (HF b Ib)). Qed.

Lemma four_agree (bm : bmodel X Y) Xs Ys C R L : (0 < length Xs)%nat -> 0 < C -> fw_usable T d Xs Ys bm -> batch_exact bm T d Xs Ys -> 0 < R -> bounded T R L (combine Xs Ys) ->
  forall t0 eps m (L0 : sg_learner) tol check avg, 1 <= t0 -> 0 < eps -> (0 < m)%nat -> length (start_weights d L0) = d -> 0 < tol -> (0 < check)%nat ->
  exists N,
  forall prm1 warm shuf prm2 sched prm3 ceq solve sw st3 reason3 prm4 yeq solve4 labs old st4 curve primal reason4,
  pegasos prm1 C t0 -> equal_steps prm1 (length Xs) m -> online_mode prm1 \/ batches_exact bm T d (combine Xs Ys) -> sg_break prm1 = false \/ mini_mode prm1 ->
  (forall it S', Permutation (shuf it S') S') -> same_rate prm1 (length Xs) warm L0 -> (N <= sg_max_iter prm1)%nat ->
  (N <= fw_max_iter prm2)%nat -> prm2 = FWParams C (fw_max_iter prm2) tol false true check avg -> passes (length Xs) sched ->
  let K := C * ofN (length Xs) in
  o_C prm3 = C -> 0 < o_tol prm3 -> o_window prm3 = O -> o_neg prm3 = None -> qp_exact solve ->
  (forall b, sw = Some b -> batch_exact b T d Xs Ys /\ (o_cache prm3 = O \/ sm_rescale (bm_s b) = false)) ->
  K * L + qp_reg * (K * K) / (1 + 1)
    < ofN (o_max_iter prm3 - 1 - (if sw then 1 else 0)) * (gain K (o_tol prm3) (R * R) - qp_reg * (K * K) / (1 + 1)) ->
  os_fit ceq solve prm3 bm sw Xs Ys Cold = Ok (st3, reason3) ->
  ns_C prm4 = C -> ns_window prm4 = O -> ns_neg prm4 = None -> ns_tol prm4 <= 0 -> qp_exact solve4 ->
  answers_all solve4 C (length Xs) T (combine Xs Ys) ->
  (forall a, yeq a a = true) -> yeq_ok T yeq (combine Xs Ys) -> zero_loss_same T (combine Xs Ys) ->
  (forall p y', In p (combine Xs Ys) -> t_label T (fst p) y' -> In y' (labs p)) ->
  (list_sum (map (fun p => length (labs p)) (combine Xs Ys)) < ns_max_iter prm4)%nat ->
  ns_fit yeq solve4 prm4 (bm_s bm) None Xs Ys None old = Ok (st4, curve, primal, reason4) ->
  exists w1 t1 c1 r1 w2 l2 p2 c2,
    sg_fit prm1 bm shuf warm (combine Xs Ys) L0 = Ok (SGLearner t1 (Some (w1, r1, c1))) /\
    fw_fit prm2 bm Xs Ys sched None = Ok (w2, l2, p2, c2) /\
    close_pairs [(w1, eps); (w2, tol); (o_w st3, K * o_tol prm3 + qp_reg * (K * K)); (st_w st4, n_gap C (length Xs))].
Proof.
  intros HN HC HU HB HR HBd t0 eps m L0 tol check avg Ht He Hm HL0 Htol Hck.
  assert (HXY : length Xs = length Ys) by apply HU. assert (Hlen : length (combine Xs Ys) = length Xs) by (rewrite combine_length; lia).
  assert (HO : oracle_exact (bm_s bm) T d (combine Xs Ys)) by apply HB. assert (Hd : sm_size (bm_s bm) = d) by apply HU.
  assert (HS : Forall (spread T (R * R)) (combine Xs Ys)). { apply Forall_forall. intros p Hp y' Ly. apply (proj2 (proj2 HBd) p y' Hp Ly). }
  destruct (equal_converges T d C t0 bm (combine Xs Ys) (R * R) L0 HC Ht ltac:(lia) Hd HO HS HL0 m eps Hm He) as [N1 HN1].
  destruct (fw_near C tol check avg Xs Ys bm R L HN (Qclt_le_weak _ _ HC) HU HB HBd Htol Hck) as [N2 HN2].
  exists (Nat.max N1 N2). intros prm1 warm shuf prm2 sched prm3 ceq solve sw st3 reason3 prm4 yeq solve4 labs old st4 curve primal reason4.
  intros A1 A2 A3 A4 A5 A6 A7 B1 B2 B3 K D1 D2 D3 D4 D5 D6 D7 D8 E1 E2 E3 E4 E5 E6 E7 E8 E9 E10 E11 E12.
  rewrite Hlen in HN1. destruct (HN1 prm1 warm shuf A1 A2 A3 A4 A5 A6 ltac:(lia)) as [w1 [c1 [F1 G1]]].
  destruct (HN2 (fw_max_iter prm2) sched ltac:(lia) B3) as [w2 [l2 [p2 [c2 [F2 G2]]]]]. rewrite <- B2 in F2.
  assert (G3 := one_near ceq solve prm3 Xs Ys (R * R) L bm sw st3 reason3). rewrite D1 in G3. cbv zeta in G3. fold K in G3.
  specialize (G3 HN HC D2 (Qcmult_pos _ _ HR HR) D3 D4 D5). specialize (G3 (fun p y' Hp Ly => conj (proj1 (proj2 (proj2 HBd) p y' Hp Ly)) (proj2 (proj2 (proj2 (proj2 HBd) p y' Hp Ly))))).
  specialize (G3 HB (or_intror (proj1 (proj2 HU))) D6 D7 D8).
  assert (G4 := n_near yeq solve4 prm4 (bm_s bm) None Xs Ys labs old st4 curve primal reason4). rewrite E1 in G4.
  specialize (G4 (Qclt_le_weak _ _ HC) HXY Hd HO ltac:(discriminate) E2 E3 E4 E5 E6 E7 E8 E9 E10 ltac:(lia) E12).
  exists w1, (sl_t L0 + sg_max_iter prm1 * m)%nat, c1, (C * ofN (length Xs)), w2, l2, p2, c2. split; [exact F1|]. split; [exact F2|].
  apply (near_pairs (bm_s bm) C (combine Xs Ys)); [apply Qclt_le_weak; exact HC|exact HO|]. repeat (apply Forall_cons); [exact G1|exact G2|exact G3|exact G4|apply Forall_nil].
Qed.

(** ** predictions settle *)
Lemma near_predicts (m : smodel X Y) C S u e v g x yp : 0 <= C -> oracle_exact m T d S -> near_minimal T d C S u e -> near_minimal T d C S v g ->
  (forall y', t_label T x y' -> length (t_feat T x y') = d) -> (forall a b : Y, a = b \/ a <> b) ->
  clear_winner T u x yp (ofN 4 * (e + g)) -> exact_inference m T v x -> sm_inference m x v = Ok yp.
Proof.
  intros HC HO Hu Hv HF DEC HW HE. apply (winner_predicted m u v x yp _ HF (proj1 Hu) (proj1 Hv) (near_close T d m C S u v e g HC HO Hu Hv) HW DEC HE).
Qed.
Lemma sg_settles C t0 (bm : bmodel X Y) S R2 L m u e D x yp : 0 < C -> 1 <= t0 -> (0 < length S)%nat -> sm_size (bm_s bm) = d ->
  oracle_exact (bm_s bm) T d S -> Forall (spread T R2) S -> length (start_weights d L) = d -> (0 < m)%nat ->
  near_minimal T d C S u e -> ofN 4 * e < D -> clear_winner T u x yp D ->
  (forall y', t_label T x y' -> length (t_feat T x y') = d) -> (forall a b : Y, a = b \/ a <> b) -> (forall w, length w = d -> exact_inference (bm_s bm) T w x) ->
  exists N, forall prm warm shuf, pegasos prm C t0 -> equal_steps prm (length S) m -> online_mode prm \/ batches_exact bm T d S ->
  sg_break prm = false \/ mini_mode prm -> (forall it S', Permutation (shuf it S') S') -> same_rate prm (length S) warm L -> (N <= sg_max_iter prm)%nat ->
  exists w c, sg_fit prm bm shuf warm S L = Ok (SGLearner (sl_t L + sg_max_iter prm * m) (Some (w, C * ofN (length S), c))) /\ sm_inference (bm_s bm) x w = Ok yp.
Proof.
  intros H1 H2 H3 H4 H5 H6 H7 H8 HU HD HW HF DEC HE. assert (HP : 0 < (D - ofN 4 * e) / ofN 4).
  { unfold Qcdiv. apply Qcmult_pos; [clear - HD; set (z := ofN 4 * e) in *; clearbody z; qclra|]. apply Qcinv_pos. apply ofN_pos. lia. }
  destruct (equal_converges T d C t0 bm S R2 L H1 H2 H3 H4 H5 H6 H7 m _ H8 HP) as [N HN]. exists N. intros prm warm shuf A1 A2 A3 A4 A5 A6 A7.
  destruct (HN prm warm shuf A1 A2 A3 A4 A5 A6 A7) as [w [c [E NM]]]. exists w, c. split; [exact E|].
  apply (near_predicts (bm_s bm) C S u e w _ x yp (Qclt_le_weak _ _ H1) H5 HU NM HF DEC); [|apply HE; apply NM].
  replace (ofN 4 * (e + (D - ofN 4 * e) / ofN 4)) with D; [exact HW|]. field. discriminate.
Qed.
Lemma fw_settles C tol check avg Xs Ys (bm : bmodel X Y) R L u e D x yp :
  (0 < length Xs)%nat -> 0 <= C -> fw_usable T d Xs Ys bm -> batch_exact bm T d Xs Ys -> bounded T R L (combine Xs Ys) -> 0 < tol -> (0 < check)%nat ->
  near_minimal T d C (combine Xs Ys) u e -> ofN 4 * (e + tol) <= D -> clear_winner T u x yp D ->
  (forall y', t_label T x y' -> length (t_feat T x y') = d) -> (forall a b : Y, a = b \/ a <> b) -> (forall w, length w = d -> exact_inference (bm_s bm) T w x) ->
  exists N, forall max_iter sched, (N <= max_iter)%nat -> passes (length Xs) sched ->
  exists w l p c, fw_fit (FWParams C max_iter tol false true check avg) bm Xs Ys sched None = Ok (w, l, p, c) /\ sm_inference (bm_s bm) x w = Ok yp.
Proof.
  intros H1 H2 H3 H4 H5 H6 H7 HU HD HW HF DEC HE. destruct (fw_near C tol check avg Xs Ys bm R L H1 H2 H3 H4 H5 H6 H7) as [N HN]. exists N. intros mi sched A B.
  destruct (HN mi sched A B) as [w [l [p [c [E NM]]]]]. exists w, l, p, c. split; [exact E|].
  apply (near_predicts (bm_s bm) C (combine Xs Ys) u e w tol x yp H2 (proj1 (proj2 H4)) HU NM HF DEC); [|apply HE; apply NM].
  exact (winner_weaken u x yp _ _ HD HW).
Qed.
End agree.

(** Full batches and a constant learning rate with inference that is not exact. *)
From Coq Require Import ZArith Permutation.
From Verif Require Import Model.Subgradient Spec.NearSpec Proofs.Arrays Proofs.LossProofs Proofs.CRFProofs Proofs.LearnerProofs Proofs.QPProofs
  Proofs.NSlackProofs5 Proofs.OneSlackProofs Proofs.OneSlackProofs2 Proofs.SubgradientProofs Proofs.SubgradientProofs2 Proofs.SubgradientProofs3 Proofs.SubgradientProofs4 Proofs.SubgradientProofs5
  Spec.SubgradientRateSpec Proofs.SubgradientRate Proofs.SubgradientRate2 Proofs.SubgradientRate3 Proofs.SubgradientConstant3 Proofs.Near Proofs.Near2.

Lemma max0_ge a : 0 <= Qcmax a 0.
Proof. unfold Qcmax. destruct (Qcleb_spec a 0) as [H|H]; [apply Qcle_refl|apply Qclt_le_weak; exact H]. Qed.
Lemma max0_le a b : a <= b -> 0 <= b -> Qcmax a 0 <= b.
Proof. intros H1 H2. unfold Qcmax. destruct (Qcleb_spec a 0); assumption. Qed.
Lemma max0_id a : 0 <= a -> Qcmax a 0 = a.
Proof. intro H. unfold Qcmax. destruct (Qcleb_spec a 0) as [L|L]; [apply Qcle_antisym; assumption|reflexivity]. Qed.

Section near.
Context {X Y : Type} (T : task X Y) (d : nat) (prm : sg_params) (bm : bmodel X Y) (S : list (X * Y)) (R2 lr eps : Qc) (shuf : nat -> list (X * Y) -> list (X * Y)).
Notation n := (length S).
Notation K := (sg_C prm * ofN n).
Notation BB := (K * K * R2).
Notation GG := ((1 + 1 + 1 + 1) * (K * K * R2)).
Notation s := (K / lr).
Notation m := (bm_s bm).
Hypothesis HC : 0 < sg_C prm.
Hypothesis HM : sg_momentum prm = 0.
Hypothesis HD : sg_decay prm = 0%nat.
Hypothesis HA : sg_avg prm = AvgNone.
Hypothesis HFB : full_batch prm.
Hypothesis HRe : sm_rescale m = false.
Hypothesis HBN : forall S', Permutation S' S -> batch_near eps bm T d (map fst S') (map snd S').
Hypothesis HSp : Forall (spread T R2) S.
Hypothesis HR : 0 <= R2.
Hypothesis Hn : (0 < n)%nat.
Hypothesis Hlr : 0 < lr.
Hypothesis HlK : lr <= K.

(** the objective as it is computed *)
Definition oh (w : list Qc) (p : X * Y) : Qc := Qcmax (hv T m w p) 0.
Definition fh (w : list Qc) : Qc := sg_C prm * lsum (map (oh w) S) + normsq w / (1 + 1).
Lemma perm_sum {A} (h : A -> Qc) l l' : Permutation l l' -> lsum (map h l) = lsum (map h l').
Proof. intro HP. apply (Permutation_map h) in HP. induction HP; cbn [lsum]; [reflexivity|rewrite IHHP; reflexivity|ring|congruence]. Qed.
Lemma near_p S0 : Permutation S0 S -> oracle_near eps m T d S0.
Proof. intro HP. destruct (HBN S0 HP) as [_ [A _]]. rewrite split_pairs in A. exact A. Qed.
Lemma found w : length w = d -> forall S0, oracle_near eps m T d S0 -> exists cs, mapM (fun p => find_constraint m (fst p) (snd p) w None true) S0 = Ok cs /\
  map (fun c => snd (fst c)) cs = map (oh w) S0.
Proof.
  intro Hw. induction S0 as [|p S0 IH]; intro HN; [exists []; split; reflexivity|]. destruct (IH (fun q Hq => HN q (or_intror Hq))) as [cs [E1 E2]].
  destruct (HN p (or_introl eq_refl)) as [HI HL]. destruct (HL w Hw) as [yh [E [L _]]]. eexists. cbn [mapM]. rewrite (find_constraint_value m T d (fst p) (snd p) w None yh HI Hw L E). cbn [bind].
  rewrite E1. cbn [bind]. split; [reflexivity|]. cbn [map fst snd]. rewrite E2. f_equal. unfold oh, hv. rewrite E. reflexivity.
Qed.
Lemma obj_is S0 w : Permutation S0 S -> length w = d -> sg_objective prm bm S0 w = Ok (fh w).
Proof.
  intros HP Hw. unfold sg_objective, objective_primal. rewrite split_pairs. destruct (found w Hw S0 (near_p S0 HP)) as [cs [E1 E2]]. rewrite E1. cbn [bind].
  assert (LC : length cs = length S0) by (rewrite <- (map_length (fun c => snd (fst c)) cs), E2, map_length; reflexivity). assert (LS := Permutation_length HP).
  destruct (Nat.eqb_spec (length cs) 0) as [Z0|_]; [lia|]. cbn [negb ensure bind]. rewrite E2. f_equal. rewrite map_map.
  rewrite (map_ext (fun p => Qcmax (oh w p) 0) (oh w)) by (intro p; apply max0_id, max0_ge). rewrite max0_id.
  - unfold fh. rewrite (perm_sum (oh w) S0 S HP). ring.
  - apply lsum_nonneg. intros v Hv. apply in_map_iff in Hv. destruct Hv as [p [<- _]]. apply max0_ge.
Qed.

(** what the labels of a step say about other weights *)
Definition piece (S0 : list (X * Y)) (Yh : list Y) (v : list Qc) : Qc := sg_C prm * lsum (margins T v (map fst S0) (map snd S0) Yh) + normsq v / (1 + 1).
Lemma piece_slope S0 Yh w dl : good T d (map fst S0) (map snd S0) -> labelling T (map fst S0) Yh -> length w = d ->
  dl = vsub (feat_sum T d (map fst S0) (map snd S0)) (feat_sum T d (map fst S0) Yh) -> normsq (vsub w (vscale (sg_C prm) dl)) <= GG ->
  slope d GG (piece S0 Yh) w (vsub w (vscale (sg_C prm) dl)).
Proof.
  intros G HL Hw ED NG. assert (L1 := feat_sum_length T d _ _ _ G (good_label _ _ _ _ G)). assert (L2 := feat_sum_length T d _ _ _ G HL).
  assert (L3 : length dl = d) by (rewrite ED, vsub_length; congruence).
  split. { rewrite vsub_length; rewrite ?vscale_length; congruence. } split; [exact NG|]. intros w' Hw'. unfold piece.
  rewrite <- (sum_margins T d w' _ Hw' _ Yh G HL), <- (sum_margins T d w _ Hw _ Yh G HL).
  rewrite <- !(dot_vsub_r (feat_sum T d (map fst S0) (map snd S0)) (feat_sum T d (map fst S0) Yh)) by congruence. rewrite <- ED.
  rewrite (half_sq w w') by congruence. rewrite dot_vsub_l by (rewrite vscale_length; congruence). rewrite dot_vscale_l. rewrite (dot_vsub_r w' w dl) by congruence.
  rewrite (dot_comm dl w'), (dot_comm dl w). set (A := loss_sum T _ Yh) in *. set (B := dot w' dl) in *. set (D := dot w dl) in *. set (E := normsq w / (1 + 1)). set (k := dot w (vsub w' w)).
  assert (EN : normsq (vsub w' w) = normsq (vsub w' w) / (1 + 1) + normsq (vsub w' w) / (1 + 1)) by (field; discriminate). set (F := normsq (vsub w' w) / (1 + 1)) in *. rewrite EN.
  apply Qc_eq_le. ring.
Qed.
Lemma piece_le S0 Yh u hu : good T d (map fst S0) (map snd S0) -> labelling T (map fst S0) Yh -> Permutation S0 S -> hinges T u S hu -> piece S0 Yh u <= primal_value (sg_C prm) u hu.
Proof.
  intros G HL HP HH. destruct (Permutation_Forall2 (Permutation_sym HP) HH) as [hu' [P1 P2]].
  assert (M := margins_le T d _ _ G u Yh hu' HL). rewrite split_pairs in M. specialize (M P2).
  assert (E : lsum hu' = lsum hu). { clear - P1. apply Permutation_sym in P1. induction P1; cbn [lsum]; [reflexivity|rewrite IHP1; reflexivity|ring|congruence]. }
  rewrite E in M. unfold piece, primal_value. apply Qcplus_le_compat; [|apply Qcle_refl]. rewrite !(Qcmult_comm (sg_C prm)). apply Qcmult_le_compat_r; [exact M|apply Qclt_le_weak; exact HC].
Qed.
Lemma sums_near w : length w = d -> forall S0 Yh, oracle_near eps m T d S0 -> Forall2 (fun p yh => near_worst T eps w (fst p) (snd p) yh) S0 Yh ->
  lsum (map (oh w) S0) <= lsum (margins T w (map fst S0) (map snd S0) Yh) + ofN (length S0) * eps.
Proof.
  intro Hw. induction S0 as [|p S0 IH]; intros Yh HN HF; inversion_clear HF as [|? yh ? Yh' H1 H2].
  - unfold margins. cbn [map combine lsum length]. rewrite ofN_0. apply Qc_eq_le. ring.
  - specialize (IH Yh' (fun q Hq => HN q (or_intror Hq)) H2). unfold margins in *. cbn [map combine lsum length fst snd]. rewrite ofN_S.
    destruct (HN p (or_introl eq_refl)) as [HI HL]. destruct (HL w Hw) as [yo [E [L _]]]. destruct H1 as [_ H1].
    assert (O1 : oh w p <= margin T w (fst p) (snd p) yh + eps).
    { unfold oh, hv. rewrite E. apply max0_le; [exact (H1 yo L)|]. destruct HI as [I1 [I2 _]]. specialize (H1 _ I1). unfold margin in H1 at 1. rewrite I2 in H1.
      set (x := dot w (t_feat T (fst p) (snd p))) in *. replace (0 - (x - x)) with 0 in H1 by ring. exact H1. }
    set (a := oh w p) in *. set (b := margin T w (fst p) (snd p) yh) in *. set (c := lsum (map (oh w) S0)) in *. set (e := lsum (map _ _)) in *.
    replace ((1 + ofN (length S0)) * eps) with (eps + ofN (length S0) * eps) by ring. set (q := ofN (length S0) * eps) in *. clearbody a b c e q. clear - IH O1. qclra.
Qed.

Notation kp := (fun st => shaped d st /\ normsq (sg_w st) <= BB /\ sg_self st = sg_w st).
Lemma nK_nz : K <> 0.
Proof. intro E. assert (P : 0 < K) by (apply Qcmult_pos; [exact HC|apply ofN_pos; exact Hn]). rewrite E in P. discriminate P. Qed.
Lemma nlr_nz : lr <> 0.
Proof. intro E. rewrite E in Hlr. discriminate Hlr. Qed.
Lemma ns_ge : 1 <= s.
Proof.
  assert (I := Qcinv_pos lr Hlr). apply Qcle_trans with (lr * / lr); [rewrite Qcmult_inv_r by exact nlr_nz; apply Qcle_refl|].
  apply Qcmult_le_compat_r; [exact HlK|apply Qclt_le_weak; exact I].
Qed.
Lemma near_pass S0 st : Permutation S0 S -> kp st -> exists st', sg_epoch prm bm lr S0 st = Ok (st', (-1)%Z) /\ kp st' /\ sg_t st' = Datatypes.S (sg_t st) /\
  forall u hu, length u = d -> hinges T u S hu -> s * normsq (vsub (sg_w st') u) + (fh (sg_w st) + fh (sg_w st)) <=
    s * normsq (vsub (sg_w st) u) + (primal_value (sg_C prm) u hu + K * eps + (primal_value (sg_C prm) u hu + K * eps)) + GG / s.
Proof.
  intros HP HK. destruct HFB as [HJ HB]. assert (LS := Permutation_length HP). destruct HK as [SH [NW SE]]. assert (SH0 := SH). destruct SH0 as [S1 [S2 S3]].
  destruct (HBN S0 HP) as [HO [HNr HL]]. assert (G := batch_good _ _ _ _ _ HO). destruct (HL _ S1) as [Yh [EY HF]]. rewrite split_pairs in HF.
  assert (LY : labelling T (map fst S0) Yh). { clear - HF. unfold labelling. induction HF as [|p yh l l' H HF IH]; cbn [map]; constructor; [apply H|exact IH]. }
  destruct HO as [_ [_ [_ [HJo _]]]]. rewrite HRe in HJo. destruct (HJo _ LY) as [J1 J2]. destruct (HJo _ (good_label _ _ _ _ G)) as [J3 _].
  assert (L1 := feat_sum_length T d _ _ _ G (good_label _ _ _ _ G)). assert (L2 := feat_sum_length T d _ _ _ G LY).
  set (dl := vsub (feat_sum T d (map fst S0) (map snd S0)) (feat_sum T d (map fst S0) Yh)) in *.
  assert (L3 : length dl = d) by (unfold dl; rewrite vsub_length; congruence).
  assert (CS : can_step prm n (sg_t st)) by (split; [apply nK_nz|intro E; congruence]).
  destruct (solve_total prm n lr (vscale (/ ofN (length S0)) dl) st CS) as [st' EST]. { rewrite vscale_length. congruence. } { congruence. }
  assert (SH' := proj1 (solve_shaped prm n lr _ d st st' SH EST)). assert (NZ := ofN_neq0 n Hn).
  assert (D := step_direction prm n lr _ st st' HM EST). rewrite LS in D. destruct D as [D1 [D2 D3]]. unfold rate_at in D1. rewrite HD in D1. cbn [Nat.eqb] in D1.
  assert (SI : lr / K = / s). { assert (A := nK_nz). assert (B' := nlr_nz). set (k' := K) in *. clearbody k'. field. auto. }
  rewrite SI in D1. assert (DB := delta_bound T d prm R2 HM HR (map fst S0) (map snd S0) Yh G LY). rewrite split_pairs, map_length, LS in DB.
  specialize (DB (Permutation_Forall (Permutation_sym HP) HSp)). fold dl in DB.
  assert (ND : normsq (vscale (/ ofN n) dl) <= R2).
  { rewrite normsq_scale. apply Qcle_trans with (/ ofN n * / ofN n * (ofN n * ofN n * R2)).
    - rewrite !(Qcmult_comm (/ ofN n * / ofN n)). apply Qcmult_le_compat_r; [exact DB|apply Qc_sq_nonneg].
    - apply Qc_eq_le. set (z := ofN n) in *. clearbody z. field. exact NZ. }
  assert (SN := step_norms d prm n R2 (sg_w st) (vscale (/ ofN n) dl) s S1 ltac:(rewrite vscale_length; exact L3) ns_ge ND NW). cbv zeta in SN. rewrite <- D1 in SN. destruct SN as [N1 N2].
  assert (EV : vscale K (vscale (/ ofN n) dl) = vscale (sg_C prm) dl).
  { apply vec_ext. { rewrite !vscale_length. reflexivity. } intros i _. rewrite !get1_vscale. set (z := ofN n) in *. clearbody z. field. exact NZ. }
  rewrite EV in D1, N2. exists st'. split.
  { unfold sg_epoch. rewrite HJ. cbn [Z.eqb Pos.eqb]. unfold sg_sequential. rewrite HB. cbn [Z.eqb Pos.eqb bind]. rewrite LS. cbn [sg_mini].
    unfold sg_mini_step. rewrite EY. cbn [bind]. rewrite J3. cbn [bind]. rewrite J1. cbn [bind]. unfold np_vsub. rewrite L1, L2, Nat.eqb_refl. cbn [bind].
    rewrite J2. cbn [bind]. fold dl. rewrite np_dot_ok by congruence. cbn [bind]. destruct (Nat.eqb_spec (length S0) 0); [lia|]. cbn [negb ensure bind]. rewrite EST. reflexivity. }
  split; [split; [exact SH'|split; [exact N1|rewrite D2, HA; reflexivity]]|]. split; [exact D3|]. intros u hu Hu HU.
  assert (ST := step_sq d GG (piece S0 Yh) (sg_w st) _ s u ns_ge S1 Hu (piece_slope S0 Yh (sg_w st) dl G LY S1 eq_refl N2)). rewrite <- D1 in ST.
  assert (PL := piece_le S0 Yh u hu G LY HP HU). assert (SM := sums_near (sg_w st) S1 S0 Yh (near_p S0 HP) HF). rewrite LS, (perm_sum (oh (sg_w st)) S0 S HP) in SM.
  apply (Qcmult_le_compat_r _ _ (sg_C prm)) in SM; [|apply Qclt_le_weak; exact HC]. rewrite Qcmult_plus_distr_l in SM. rewrite !(Qcmult_comm _ (sg_C prm)) in SM.
  assert (FP : fh (sg_w st) <= piece S0 Yh (sg_w st) + K * eps).
  { unfold fh, piece. replace (K * eps) with (sg_C prm * (ofN n * eps)) by ring. set (a := sg_C prm * lsum (map _ S)) in *. set (b := sg_C prm * lsum (margins _ _ _ _ _)) in *. set (c := sg_C prm * (ofN n * eps)) in *.
    set (e := normsq (sg_w st) / (1 + 1)). clearbody a b c e. clear - SM. qclra. }
  assert (NN := normsq_nonneg (vsub (sg_w st) u)). set (c := normsq (vsub (sg_w st) u)) in *. replace ((s - 1) * c) with (s * c - c) in ST by ring.
  set (a := s * normsq (vsub (sg_w st') u)) in *. set (b := s * c) in *. set (pu := piece S0 Yh u) in *. set (pw := piece S0 Yh (sg_w st)) in *. set (x := GG / s) in *. set (fw := fh (sg_w st)) in *.
  set (ke := K * eps) in *. set (pv := primal_value (sg_C prm) u hu) in *. clearbody a b c pu pw x fw ke pv. clear - ST PL FP NN. qclra.
Qed.
Hypothesis HSh : forall it S', Permutation S' S -> Permutation (shuf it S') S.
Lemma near_loop : forall k it S0 st c, Permutation S0 S -> kp st -> exists st' vs S',
  sg_loop prm bm lr shuf k it S0 st c = Ok (st', c ++ vs, S') /\ Permutation S' S /\ kp st' /\ sg_t st' = (sg_t st + k)%nat /\ length vs = k /\
  forall u hu, length u = d -> hinges T u S hu -> s * normsq (vsub (sg_w st') u) + (lsum (firstn k (fh (sg_w st) :: vs)) + lsum (firstn k (fh (sg_w st) :: vs))) <=
    s * normsq (vsub (sg_w st) u) + ofN k * (primal_value (sg_C prm) u hu + K * eps + (primal_value (sg_C prm) u hu + K * eps) + GG / s).
Proof.
  induction k as [|k IH]; intros it S0 st c HP HK; cbn [sg_loop].
  - exists st, [], S0. rewrite app_nil_r. split; [reflexivity|]. split; [exact HP|]. split; [exact HK|]. split; [lia|]. split; [reflexivity|].
    intros u hu _ _. cbn [firstn lsum]. rewrite ofN_0. apply Qc_eq_le. ring.
  - assert (HP' := HSh it S0 HP). destruct (near_pass (shuf it S0) st HP' HK) as [st1 [E1 [E2 [E3 E4]]]]. rewrite E1. cbn [bind fst snd Z.eqb andb].
    rewrite (obj_is (shuf it S0) (sg_self st1) HP' (proj1 (proj2 (proj1 E2)))). cbn [bind].
    destruct (IH (Datatypes.S it) (shuf it S0) st1 (c ++ [fh (sg_self st1)]) HP' E2) as [st' [vs [S' [F1 [F2 [F3 [F4 [F5 F6]]]]]]]].
    exists st', (fh (sg_self st1) :: vs), S'. rewrite <- app_assoc in F1. split; [exact F1|]. split; [exact F2|]. split; [exact F3|]. split; [rewrite F4, E3; lia|]. split; [cbn [length]; lia|].
    intros u hu Hu HU. specialize (F6 u hu Hu HU). specialize (E4 u hu Hu HU). rewrite (proj2 (proj2 E2)). change (firstn (Datatypes.S k) (fh (sg_w st) :: fh (sg_w st1) :: vs)) with (fh (sg_w st) :: firstn k (fh (sg_w st1) :: vs)).
    cbn [lsum]. rewrite ofN_S. set (V := lsum (firstn k _)) in *. set (f0 := fh (sg_w st)) in *. set (x := GG / s) in *. set (pv := primal_value (sg_C prm) u hu + K * eps) in *. set (kk := ofN k) in *.
    replace ((1 + kk) * (pv + pv + x)) with (pv + pv + x + kk * (pv + pv + x)) by ring. set (q := kk * (pv + pv + x)) in *.
    set (s0 := s * normsq (vsub (sg_w st') u)) in *. set (s1 := s * normsq (vsub (sg_w st1) u)) in *. set (s2 := s * normsq (vsub (sg_w st) u)) in *. clearbody q V f0 x pv s0 s1 s2. clear - F6 E4. qclra.
Qed.
End near.

Lemma near_best {X Y} (T : task X Y) d (bm : bmodel X Y) S R2 lr eps shuf prm (warm : bool) L : 0 < sg_C prm -> (0 < length S)%nat -> sm_size (bm_s bm) = d -> sm_rescale (bm_s bm) = false ->
  (forall S', Permutation S' S -> batch_near eps bm T d (map fst S') (map snd S')) -> 0 <= R2 -> Forall (spread T R2) S ->
  sg_momentum prm = 0 -> sg_decay prm = 0%nat -> sg_avg prm = AvgNone -> full_batch prm ->
  (forall it S', Permutation S' S -> Permutation (shuf it S') S) ->
  let K := sg_C prm * ofN (length S) in
  0 < lr -> lr <= K -> forall c0,
  (if warm then exists w, sl_fitted L = Some (w, lr, c0) else c0 = [] /\ (sg_lr prm = Some lr \/ sg_lr prm = None /\ lr = K)) ->
  length (start_weights d L) = d -> normsq (start_weights d L) <= K * K * R2 -> (0 < sg_max_iter prm)%nat ->
  let E := sg_max_iter prm in
  exists w vs o0 o, sg_fit prm bm shuf warm S L = Ok (SGLearner (sl_t L + E) (Some (w, lr, c0 ++ vs ++ [o]))) /\ length vs = E /\ length w = d /\ normsq w <= K * K * R2 /\
  sg_objective prm bm S (start_weights d L) = Ok o0 /\ sg_objective prm bm S w = Ok o /\
  forall u hu, length u = d -> hinges T u S hu ->
    exists v, In v (firstn E (o0 :: vs)) /\
      v <= primal_value (sg_C prm) u hu + K * eps + K / lr * normsq (vsub (start_weights d L) u) / ((1 + 1) * ofN E) + (1 + 1) * (lr * K * R2).
Proof.
  intros HC Hn Hd HRe HBN HR HSp HM HD HA HFB HSh K Hlr HlK c0 HL LW NW HE0 E. set (st0 := SGState (start_weights d L) (start_weights d L) (vzero d) (sl_t L)).
  assert (LC : (if warm then match sl_fitted L with Some (_, lr, c) => Ok (lr, c) | None => Err AttributeError end
      else Ok (match sg_lr prm with None => sg_C prm * ofN (length S) | Some r => r end, [])) = Ok (lr, c0)).
  { destruct warm; [destruct HL as [w EL]; rewrite EL; reflexivity|]. destruct HL as [-> [EL|[EL E']]]; rewrite EL; [|rewrite E']; reflexivity. }
  destruct (near_loop T d prm bm S R2 lr eps shuf HC HM HD HA HFB HRe HBN HSp HR Hn Hlr HlK HSh E 0 S st0 c0 (Permutation_refl S)) as [st' [vs [S' [F1 [F2 [F3 [F4 [F5 F6]]]]]]]].
  { split; [split; [exact LW|split; [exact LW|apply vzero_length]]|]. split; [exact NW|reflexivity]. }
  destruct F3 as [SH' [NW' SE']]. assert (OB := fun S0 w => obj_is T d prm bm S eps HD HBN Hn S0 w).
  exists (sg_w st'), vs, (fh T prm bm S (start_weights d L)), (fh T prm bm S (sg_w st')). split.
  - unfold sg_fit. rewrite LC. cbn [bind fst snd]. rewrite Hd. change (SGState _ _ _ _) with st0. fold E. rewrite F1. cbn [bind].
    rewrite (OB S' (sg_self st') F2 (proj1 (proj2 SH'))). cbn [bind]. rewrite F4, SE', <- app_assoc. reflexivity.
  - split; [exact F5|]. split; [apply SH'|]. split; [exact NW'|]. split; [apply OB; [apply Permutation_refl|exact LW]|]. split; [apply OB; [apply Permutation_refl|apply SH']|].
    intros u hu Hu HU. specialize (F6 u hu Hu HU). cbn [st0 sg_w] in F6. set (vs' := fh T prm bm S (start_weights d L) :: vs) in *.
    assert (LV : length (firstn E vs') = E) by (rewrite firstn_length; unfold vs'; cbn [length]; lia).
    apply mean_above. { intro Z0. rewrite Z0 in LV. cbn in LV. unfold E in LV. lia. }
    rewrite LV. assert (NN := normsq_nonneg (vsub (sg_w st') u)). assert (PE : 0 < ofN E) by (apply ofN_pos; exact HE0).
    assert (PK : 0 < K) by (apply Qcmult_pos; [exact HC|apply ofN_pos; exact Hn]).
    assert (PS : 0 < K / lr) by (apply Qcmult_pos; [exact PK|apply Qcinv_pos; exact Hlr]).
    assert (NS := Qcmult_nonneg _ _ (Qclt_le_weak _ _ PS) NN). fold K in F6. set (V := lsum _) in *. set (D0 := normsq (vsub (start_weights d L) u)) in *. set (Q := K / lr * normsq (vsub (sg_w st') u)) in *.
    set (pv := primal_value (sg_C prm) u hu) in *.
    assert (G2 : V + V <= K / lr * D0 + ofN E * (pv + K * eps + (pv + K * eps) + (1 + 1 + 1 + 1) * (K * K * R2) / (K / lr))).
    { set (b := K / lr * D0) in *. set (c := ofN E * _) in *. clearbody V b c Q. clear - F6 NS. qclra. }
    assert (N1 : ofN E <> 0) by (intro Z0; rewrite Z0 in PE; discriminate PE).
    assert (N3 : K <> 0) by (intro Z0; rewrite Z0 in PK; discriminate PK). assert (N4 : lr <> 0) by (intro Z0; rewrite Z0 in Hlr; discriminate Hlr).
    assert (P2 : 0 <= / (1 + 1)) by discriminate. apply (Qcmult_le_compat_r _ _ (/ (1 + 1))) in G2; [|exact P2].
    assert (TW : (1 + 1 : Qc) <> 0) by discriminate. set (ee := ofN E) in *. clearbody ee K D0 V pv.
    assert (EA : (V + V) * / (1 + 1) = V) by (field; exact TW). rewrite EA in G2. eapply Qcle_trans; [exact G2|]. apply Qc_eq_le. field. repeat split; assumption.
Qed.

(** the recorded objective and the true one *)
Lemma objective_close {X Y} (T : task X Y) d (bm : bmodel X Y) S eps prm w o hs : 0 <= sg_C prm -> (0 < length S)%nat -> 0 <= eps -> oracle_near eps (bm_s bm) T d S -> length w = d ->
  sg_objective prm bm S w = Ok o -> hinges T w S hs -> o <= primal_value (sg_C prm) w hs /\ primal_value (sg_C prm) w hs <= o + sg_C prm * ofN (length S) * eps.
Proof.
  intros HC Hn HE HN Hw EO HH. assert (LM : length (map fst S) = length (map snd S)) by (rewrite !map_length; reflexivity).
  assert (NE : map fst S <> []) by (intro Z0; apply (f_equal (@length X)) in Z0; rewrite map_length in Z0; cbn in Z0; lia).
  destruct (objective_near T d eps (bm_s bm) w (map fst S) (map snd S) (sg_C prm) NSlack hs LM NE Hw HE HC) as [r [E1 [E2 E3]]]; [rewrite split_pairs; assumption..|].
  unfold sg_objective in EO. rewrite EO in E1. injection E1 as ->. rewrite map_length in E3. auto.
Qed.

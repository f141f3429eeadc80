(** The averaged weights of SubgradientSSVM converge: the results of fit. *)
From Coq Require Import ZArith Permutation.
From Verif Require Import Model.Subgradient Proofs.Arrays Proofs.LearnerProofs Proofs.SubgradientProofs Proofs.SubgradientProofs2
  Spec.SubgradientAvgSpec Proofs.SubgradientRate Proofs.SubgradientRate2 Proofs.SubgradientRate3 Proofs.SubgradientRate4 Proofs.SubgradientRate5 Proofs.SubgradientRate6 Proofs.FWRate5
  Proofs.SubgradientProofs4 Proofs.SubgradientProofs5 Proofs.SubgradientAvg Proofs.SubgradientAvg2.

Lemma far_small m s j N e G : (0 < m)%nat -> 0 <= s -> (0 < N)%nat -> (N <= j)%nat -> 0 <= e -> G + G <= ofN N * e ->
  (1 + 1) * ((ofN m / (s + ofN j * ofN m)) * (ofN m / (s + ofN j * ofN m)) * G) <= e.
Proof.
  intros Hm Hs HN HJ He HG. assert (Pm := ofN_pos m Hm). assert (Pj := ofN_pos j ltac:(lia)). assert (Pjm := Qcmult_pos _ _ Pj Pm).
  assert (PD : 0 < s + ofN j * ofN m) by (set (x := ofN j * ofN m) in *; clearbody x; clear - Hs Pjm; qclra).
  set (q := ofN m / (s + ofN j * ofN m)). assert (Q0 : 0 <= q) by (apply Qcmult_nonneg; [apply Qclt_le_weak; exact Pm|apply Qclt_le_weak, Qcinv_pos; exact PD]).
  assert (QE : q * s + q * ofN j * ofN m = ofN m). { unfold q. field. intro E. rewrite E in PD. discriminate PD. }
  assert (QJ : q * ofN j <= 1).
  { apply Qcmult_lt_0_le_reg_r with (ofN m); [exact Pm|]. assert (A := Qcmult_nonneg _ _ Q0 Hs). rewrite Qcmult_1_l. set (x := q * s) in *. set (y := q * ofN j * ofN m) in *. set (z := ofN m) in *. clearbody x y z. clear - QE A. qclra. }
  clearbody q. assert (J1 : 1 <= ofN j). { destruct j; [lia|]. rewrite ofN_S. assert (P := ofN_nonneg j). set (x := ofN j) in *. clearbody x. clear - P. qclra. }
  assert (NJ : ofN N <= ofN j). { replace j with (N + (j - N))%nat by lia. rewrite ofN_plus. assert (P := ofN_nonneg (j - N)). set (x := ofN (j - N)) in *. set (y := ofN N) in *. clearbody x y. clear - P. qclra. }
  assert (Q1 : q <= 1). { eapply Qcle_trans; [|exact QJ]. rewrite <- (Qcmult_1_r q) at 1. rewrite !(Qcmult_comm q). apply Qcmult_le_compat_r; [exact J1|exact Q0]. }
  replace ((1 + 1) * (q * q * G)) with ((G + G) * (q * q)) by ring.
  apply Qcle_trans with (ofN N * e * (q * q)); [apply Qcmult_le_compat_r; [exact HG|apply Qc_sq_nonneg]|].
  apply Qcle_trans with (ofN j * (e * (q * q))). { replace (ofN N * e * (q * q)) with (ofN N * (e * (q * q))) by ring. apply Qcmult_le_compat_r; [exact NJ|]. apply Qcmult_nonneg; [exact He|apply Qc_sq_nonneg]. }
  replace (ofN j * (e * (q * q))) with (q * ofN j * (q * e)) by ring. apply Qcle_trans with (1 * (q * e)); [apply Qcmult_le_compat_r; [exact QJ|apply Qcmult_nonneg; assumption]|].
  rewrite Qcmult_1_l. rewrite <- (Qcmult_1_l e) at 2. apply Qcmult_le_compat_r; assumption.
Qed.
Lemma archimedes_mult x e : 0 < e -> exists N, x <= ofN N * e.
Proof.
  intro He. destruct (archimedes (x / e)) as [N HN]. exists N. apply Qclt_le_weak in HN. assert (H := Qcmult_le_compat_r _ _ e HN (Qclt_le_weak _ _ He)).
  replace (x / e * e) with x in H; [exact H|]. field. intro E. rewrite E in He. discriminate He.
Qed.

Section out.
Context {X Y : Type} (T : task X Y) (d : nat) (C t0 : Qc) (a : averaging) (bm : bmodel X Y) (S : list (X * Y)) (R : Qc) (m : nat) (f : list Qc -> Qc) (allowed : list (X * Y) -> Prop) (L : sg_learner).
Notation n := (length S).
Notation K := (C * ofN n).
Notation BB := (K * K * R).
Notation GG := ((1 + 1 + 1 + 1) * (K * K * R)).
Hypothesis HA : a <> AvgNone.
Hypothesis HT : 1 <= t0.
Hypothesis Hn : (0 < n)%nat.
Hypothesis Hm : (0 < m)%nat.
Hypothesis HR : 0 <= R.
Hypothesis Hd : sm_size (bm_s bm) = d.
Hypothesis HO : oracle_exact (bm_s bm) T d S.
Hypothesis HAl : allowed S.
Hypothesis HAp : forall S', allowed S' -> Permutation S' S.
Hypothesis LW : length (start_weights d L) = d.
Hypothesis NW : normsq (start_weights d L) <= BB.

Lemma avg_run e N prm warm shuf : averaged prm C t0 a -> epoch_ok T d prm bm n R m f allowed -> (forall it S', allowed S' -> allowed (shuf it S')) -> same_rate prm n warm L ->
  sg_break prm = false \/ mini_mode prm -> (0 < N)%nat ->
  (forall ws w', (N <= length ws)%nat -> epochs d GG BB m f (ofN (sl_t L) + t0) (start_weights d L) ws w' -> forall u, length u = d -> f w' <= f u + e) ->
  (forall j, (N <= j)%nat -> (1 + 1) * ((ofN m / (ofN (sl_t L) + t0 + ofN j * ofN m)) * (ofN m / (ofN (sl_t L) + t0 + ofN j * ofN m)) * GG) <= e) ->
  (N <= sg_max_iter prm)%nat ->
  exists w c, sg_fit prm bm shuf warm S L = Ok (SGLearner (sl_t L + sg_max_iter prm * m) (Some (w, K, c))) /\ inball d BB w /\ sloped d GG BB f /\
  exists u, inball d BB u /\ (forall v, length v = d -> f u <= f v + e) /\
    total (avg_weight a) (sl_t L + sg_max_iter prm * m) * normsq (vsub w u) + total (avg_weight a) (sl_t L + N * m) * (ofN 17 * e) <=
    total (avg_weight a) (sl_t L + N * m) * GG + total (avg_weight a) (sl_t L + sg_max_iter prm * m) * (ofN 17 * e).
Proof.
  intros [EC [Et [HM [HD [HLR EA]]]]] HE HS HSr HBr HN HCv HF HI. subst C t0 a.
  set (st0 := fit_start bm L). assert (E0 : st0 = SGState (start_weights d L) (start_weights d L) (vzero d) (sl_t L)) by (unfold st0, fit_start, start_weights; rewrite Hd; reflexivity).
  assert (HK : keeps d prm n R st0). { rewrite E0. split; [split; [exact LW|split; [exact LW|apply vzero_length]]|]. split; [exact NW|reflexivity]. }
  assert (LC : exists c0, (if warm then match sl_fitted L with Some (_, lr, c) => Ok (lr, c) | None => Err AttributeError end
      else Ok (match sg_lr prm with None => sg_C prm * ofN (length S) | Some r => r end, [])) = Ok ((sg_C prm * ofN n), c0)).
  { destruct warm; [destruct (HSr eq_refl) as [w [c E]]; rewrite E; eauto|]. rewrite HLR. eauto. }
  destruct LC as [c0 LC].
  assert (HOb : forall S' w, allowed S' -> length w = d -> exists o, sg_objective prm bm S' w = Ok o).
  { intros S' w HS' Hw. assert (HP := HAp S' HS'). apply (objective_total T d prm bm n Hn S' w); [rewrite (Permutation_length HP); exact Hn| |exact Hw].
    apply exact_is_ok. apply (exact_incl _ _ _ _ _ HO), perm_incl, HP. }
  assert (HB : sg_break prm = false \/ (forall S' st st' pos, sg_epoch prm bm (sg_C prm * ofN n) S' st = Ok (st', pos) -> pos <> 0%Z)).
  { destruct HBr as [E|E]; [left; exact E|right]. intros S' st st' pos. apply mini_epoch_pos. exact E. }
  assert (HI0 : follows d prm n R m f (sl_t L) (start_weights d L) e N 0 st0).
  { split; [exact HK|]. rewrite E0. cbn [sg_self sg_t sg_w]. split; [exact NW|]. split; [lia|]. exists []. split; [reflexivity|]. split; [reflexivity|]. lia. }
  destruct (loop_keeps T d prm bm n R m f shuf allowed Hm HS HOb HE HB (follows d prm n R m f (sl_t L) (start_weights d L) e N)) with (k := sg_max_iter prm) (j := 0%nat) (it := 0%nat) (S := S) (st := st0) (c := c0) as [st' [c' [S' [F1 [F2 F3]]]]]; auto.
  { intros j st H. apply H. }
  { intros j S' st st' pos H1 H2 H3. exact (follows_step T d prm bm n R m f allowed HT HR Hm HA HE (sl_t L) (start_weights d L) e N HN HCv HF j S' st st' pos H1 H2 H3). }
  cbn [Nat.add] in F3. destruct F3 as [FK [FN [Ft [ws [Lws [FE Fset]]]]]].
  destruct (HOb S' (sg_self st') F2) as [o EO]; [apply FK|].
  exists (sg_self st'), (c' ++ [o]). split.
  { unfold sg_fit. rewrite LC. cbn [bind fst snd]. change (SGState _ _ _ _) with st0. rewrite F1. cbn [bind]. rewrite EO. cbn [bind]. rewrite Ft. reflexivity. }
  split; [split; [apply FK|exact FN]|]. split.
  { apply (epochs_sloped d ((1 + 1 + 1 + 1) * ((sg_C prm * ofN n) * (sg_C prm * ofN n) * R)) ((sg_C prm * ofN n) * (sg_C prm * ofN n) * R) m f (GG_pos prm n R HR) Hm (ofN (sl_t L) + sg_t0 prm) (start_weights d L) ws (sg_w st') FE). intro Q. subst ws. cbn in Lws. lia. }
  specialize (Fset HI). rewrite Ft in Fset. exact Fset.
Qed.
Lemma avg_fit eps : (forall v, length v = d -> normsq v <= f v + f v) -> 0 < eps ->
  exists N, forall prm warm shuf, averaged prm C t0 a -> epoch_ok T d prm bm n R m f allowed -> (forall it S', allowed S' -> allowed (shuf it S')) -> same_rate prm n warm L ->
  sg_break prm = false \/ mini_mode prm -> (N <= sg_max_iter prm)%nat ->
  exists w c, sg_fit prm bm shuf warm S L = Ok (SGLearner (sl_t L + sg_max_iter prm * m) (Some (w, K, c))) /\ length w = d /\ forall u, length u = d -> f w <= f u + eps.
Proof.
  intros HF He. assert (PG : 0 <= GG) by (apply Qcmult_nonneg; [discriminate|]; apply Qcmult_nonneg; [apply Qc_sq_nonneg|exact HR]).
  assert (HS1 : 1 <= ofN (sl_t L) + t0). { assert (P := ofN_nonneg (sl_t L)). set (x := ofN (sl_t L)) in *. clearbody x. clear - P HT. qclra. }
  assert (HG : GG = BB + BB + (BB + BB)) by ring.
  set (r := eps / (1 + 1)). assert (Pr : 0 < r) by (apply Qcmult_pos; [exact He|reflexivity]). assert (ER : r + r = eps) by (unfold r; apply half_sq). clearbody r.
  set (D := ofN 18 * (GG + 1) + r). assert (PD0 : 0 <= ofN 18 * (GG + 1)). { apply Qcmult_nonneg; [apply ofN_nonneg|]. set (g := GG) in *. clearbody g. clear - PG. qclra. }
  assert (PD : 0 < D). { unfold D. set (x := ofN 18 * (GG + 1)) in *. clearbody x. clear - PD0 Pr. qclra. }
  set (e := r * r / D). assert (Pe : 0 < e) by (apply Qcmult_pos; [apply Qcmult_pos; exact Pr|apply Qcinv_pos; exact PD]).
  assert (Ee : e * D = r * r). { unfold e. field. intro E. rewrite E in PD. discriminate PD. } clearbody e.
  assert (E1 : GG * (ofN 18 * e) <= r * r).
  { rewrite <- Ee. replace (GG * (ofN 18 * e)) with (ofN 18 * GG * e) by ring. rewrite (Qcmult_comm e). apply Qcmult_le_compat_r; [|apply Qclt_le_weak; exact Pe].
    unfold D. replace (ofN 18 * (GG + 1)) with (ofN 18 * GG + ofN 18) by ring. assert (P := ofN_nonneg 18). set (x := ofN 18 * GG) in *. set (y := ofN 18) in *. clearbody x y. clear - P Pr. qclra. }
  assert (E2 : e <= r).
  { apply Qcmult_lt_0_le_reg_r with D; [exact PD|]. rewrite Ee. rewrite (Qcmult_comm r D). apply Qcmult_le_compat_r; [|apply Qclt_le_weak; exact Pr]. unfold D. set (x := ofN 18 * (GG + 1)) in *. clearbody x. clear - PD0. qclra. }
  clearbody D.
  destruct (converge d GG BB m f PG Hm HG (ofN (sl_t L) + t0) (start_weights d L) e HS1 (conj LW NW) HF Pe) as [N1 [PN1 HN1]].
  destruct (archimedes_mult (GG + GG) e Pe) as [N2 HN2]. set (N := Nat.max N1 N2).
  assert (HN3 : GG + GG <= ofN N * e). { eapply Qcle_trans; [exact HN2|]. apply Qcmult_le_compat_r; [|apply Qclt_le_weak; exact Pe]. replace N with (N2 + (N - N2))%nat by lia. rewrite ofN_plus. assert (P := ofN_nonneg (N - N2)). set (x := ofN (N - N2)) in *. set (y := ofN N2) in *. clearbody x y. clear - P. qclra. }
  set (T1 := total (avg_weight a) (sl_t L + N * m)). destruct (archimedes_mult (T1 * GG) e Pe) as [M HM].
  exists (N + M)%nat. intros prm warm shuf HP HE HS HSr HBr HI.
  destruct (avg_run e N prm warm shuf HP HE HS HSr HBr ltac:(lia)) as [w [c [A1 [A2 [A3 [u [A4 [A5 A6]]]]]]]].
  { intros ws w' HL. apply HN1. lia. }
  { intros j HJ. apply (far_small m _ j N e); auto; try lia; [|apply Qclt_le_weak; exact Pe]. eapply Qcle_trans; [|exact HS1]. discriminate. }
  { lia. }
  exists w, c. split; [exact A1|]. split; [apply A2|]. intros v Hv.
  assert (DD : normsq (vsub w u) <= ofN 18 * e).
  { fold T1 in A6. assert (T2 := total_ge a (sl_t L + sg_max_iter prm * m)). set (T' := total (avg_weight a) (sl_t L + sg_max_iter prm * m)) in *.
    assert (TM : ofN M <= T'). { eapply Qcle_trans; [|exact T2]. assert (LE : (M <= sl_t L + sg_max_iter prm * m)%nat) by nia. replace (sl_t L + sg_max_iter prm * m)%nat with (M + (sl_t L + sg_max_iter prm * m - M))%nat by lia. rewrite ofN_plus. assert (P := ofN_nonneg (sl_t L + sg_max_iter prm * m - M)). set (x := ofN (_ - M)) in *. set (y := ofN M) in *. clearbody x y. clear - P. qclra. }
    assert (TE : T1 * GG <= T' * e) by (eapply Qcle_trans; [exact HM|]; apply Qcmult_le_compat_r; [exact TM|apply Qclt_le_weak; exact Pe]).
    assert (TP : 0 < T'). { eapply Qclt_le_trans; [|exact T2]. apply ofN_pos. nia. }
    assert (T1P : 0 <= T1 * (ofN 17 * e)). { apply Qcmult_nonneg; [apply total_nonneg|]. apply Qcmult_nonneg; [apply ofN_nonneg|apply Qclt_le_weak; exact Pe]. }
    apply Qcmult_lt_0_le_reg_r with T'; [exact TP|]. rewrite (Qcmult_comm (normsq _)). replace (ofN 18 * e * T') with (T' * e + T' * (ofN 17 * e)).
    - set (x1 := T' * normsq (vsub w u)) in *. set (x2 := T1 * (ofN 17 * e)) in *. set (x3 := T1 * GG) in *. set (x4 := T' * e) in *. set (x5 := T' * (ofN 17 * e)) in *. clearbody x1 x2 x3 x4 x5. clear - A6 TE T1P. qclra.
    - replace (ofN 18) with (1 + ofN 17) by (apply Qc_is_canon; vm_compute; reflexivity). ring. }
  destruct (A3 w A2) as [g Hg]. assert (VG := value_gap d GG PG f w g u r (ofN 18 * e) Hg (proj1 A2) (proj1 A4) (Qclt_le_weak _ _ Pr) DD E1). specialize (A5 v Hv).
  rewrite <- ER. set (x := f w) in *. set (y := f u) in *. set (z := f v) in *. clearbody x y z. clear - VG A5 E2. qclra.
Qed.
End out.
Lemma any_fit {X Y} (T : task X Y) d C t0 a (bm : bmodel X Y) S R m f (allowed : list (X * Y) -> Prop) L eps : 0 < C -> 1 <= t0 -> (0 < length S)%nat -> (0 < m)%nat -> 0 <= R -> sm_size (bm_s bm) = d -> oracle_exact (bm_s bm) T d S ->
  allowed S -> (forall S', allowed S' -> Permutation S' S) -> length (start_weights d L) = d -> normsq (start_weights d L) <= C * ofN (length S) * (C * ofN (length S)) * R ->
  (forall v, length v = d -> normsq v <= f v + f v) -> 0 < eps ->
  exists N, forall prm warm shuf, averaged prm C t0 a -> epoch_ok T d prm bm (length S) R m f allowed -> (forall it S', allowed S' -> allowed (shuf it S')) -> same_rate prm (length S) warm L ->
  sg_break prm = false \/ mini_mode prm -> (N <= sg_max_iter prm)%nat ->
  exists w c, sg_fit prm bm shuf warm S L = Ok (SGLearner (sl_t L + sg_max_iter prm * m) (Some (w, C * ofN (length S), c))) /\ length w = d /\ forall u, length u = d -> f w <= f u + eps.
Proof.
  intros H1 H2 H3 H4 H5 H6 H7 H8 H9 H10 H11 H12 H13.
  assert (D : a = AvgNone \/ a <> AvgNone) by (destruct a; [left; reflexivity|right; discriminate|right; discriminate]). destruct D as [->|HA].
  - exact (conv_fit T d C t0 bm S R m f allowed L H1 H2 H3 H4 H5 H6 H7 H8 H9 H10 H11 eps H12 H13).
  - exact (avg_fit T d C t0 a bm S R m f allowed L HA H2 H3 H4 H5 H6 H7 H8 H9 H10 H11 eps H12 H13).
Qed.

Section theorems.
Context {X Y : Type} (T : task X Y) (d : nat) (C t0 : Qc) (a : averaging) (bm : bmodel X Y) (S : list (X * Y)) (R2 : Qc) (L : sg_learner).
Notation n := (length S).
Notation K := (C * ofN n).
Hypothesis HC : 0 < C.
Hypothesis HT : 1 <= t0.
Hypothesis Hn : (0 < n)%nat.
Hypothesis Hd : sm_size (bm_s bm) = d.
Hypothesis HO : oracle_exact (bm_s bm) T d S.
Hypothesis HSp : Forall (spread T R2) S.
Hypothesis LW : length (start_weights d L) = d.
Notation RR R := (R + normsq (start_weights d L) / (K * K)).

Lemma avg_equal m eps : (0 < m)%nat -> 0 < eps -> exists N, forall prm warm shuf, averaged prm C t0 a -> equal_steps prm n m -> online_mode prm \/ batches_exact bm T d S ->
  sg_break prm = false \/ mini_mode prm -> (forall it S', Permutation (shuf it S') S') -> same_rate prm n warm L -> (N <= sg_max_iter prm)%nat ->
  exists w c, sg_fit prm bm shuf warm S L = Ok (SGLearner (sl_t L + sg_max_iter prm * m) (Some (w, K, c))) /\ near_minimal T d C S w eps.
Proof.
  intros Hm He. assert (PR := R2_nonneg T d bm S R2 Hn HO HSp). assert (Q := RR_le d C S L HC Hn R2). assert (PRR : 0 <= RR R2) by (eapply Qcle_trans; [exact PR|exact Q]).
  destruct (any_fit T d C t0 a bm S (RR R2) m (comp T (bm_s bm) C S) (fun S' => Permutation S' S) L eps HC HT Hn Hm PRR Hd HO (Permutation_refl S) (fun S' H => H) LW (RR_start d C S L HC Hn R2 PR)) as [N HN].
  { intros v Hv. apply (comp_above T d); auto. apply Qclt_le_weak. exact HC. } { exact He. }
  exists N. intros prm warm shuf HP HE HB HBr HS HSr HI. destruct (HN prm warm shuf HP) as [w [c [A1 [A2 A3]]]]; auto.
  - set (R' := RR R2) in *. clearbody R'. clear LW PRR HN. destruct HP as [<- [<- [HM [HD [HLR HA]]]]]. apply (equal_ok T d prm bm S R2 R'); auto.
  - apply (perm_shuf S). exact HS.
  - exists w, c. split; [exact A1|]. apply (near_of T d bm S HO); auto.
Qed.
Lemma avg_parallel b eps : (0 < b)%nat -> 0 < eps -> exists N, forall prm warm shuf, averaged prm C t0 a -> parallel_steps prm b -> sg_break prm = false ->
  (forall it S', Permutation (shuf it S') S') -> same_rate prm n warm L -> (N <= sg_max_iter prm)%nat ->
  exists w c, sg_fit prm bm shuf warm S L = Ok (SGLearner (sl_t L + sg_max_iter prm * batch_count n b) (Some (w, K, c))) /\
  near_minimal T d (C * ofN n / ofN (batch_count n b)) S w eps.
Proof.
  intros Hb He. assert (Hm := count_pos n b Hn Hb). assert (P2 := R2_nonneg T d bm S R2 Hn HO HSp). set (R := ofN b * ofN b * R2). assert (PR : 0 <= R) by (apply Qcmult_nonneg; [apply Qc_sq_nonneg|exact P2]).
  assert (Q := RR_le d C S L HC Hn R). assert (PRR : 0 <= RR R) by (eapply Qcle_trans; [exact PR|exact Q]).
  destruct (any_fit T d C t0 a bm S (RR R) (batch_count n b) (comp T (bm_s bm) (K / ofN (batch_count n b)) S) (fun S' => Permutation S' S) L eps HC HT Hn Hm PRR Hd HO (Permutation_refl S) (fun S' H => H) LW (RR_start d C S L HC Hn R PR)) as [N HN].
  { intros v Hv. apply (comp_above T d); auto. apply Qcmult_nonneg; [apply Qcmult_nonneg; [apply Qclt_le_weak; exact HC|apply ofN_nonneg]|]. apply Qclt_le_weak, Qcinv_pos, ofN_pos. exact Hm. } { exact He. }
  exists N. intros prm warm shuf HP HE HBr HS HSr HI. destruct (HN prm warm shuf HP) as [w [c [A1 [A2 A3]]]]; auto.
  - set (R' := RR R) in *. clearbody R'. clear LW PRR HN. destruct HP as [<- [<- [HM [HD [HLR HA]]]]]. apply (par_ok T d prm bm S R2 R'); auto.
  - apply (perm_shuf S). exact HS.
  - exists w, c. split; [exact A1|]. apply (near_of T d bm S HO); auto.
Qed.
Lemma avg_uneven b eps : (1 < b)%Z -> batches_exact bm T d S -> 0 < eps -> exists N, forall prm warm shuf, averaged prm C t0 a -> sg_jobs prm = 1%Z -> sg_batch prm = Some b ->
  (forall it S', shuf it S' = S') -> same_rate prm n warm L -> (N <= sg_max_iter prm)%nat ->
  exists w c, sg_fit prm bm shuf warm S L = Ok (SGLearner (sl_t L + sg_max_iter prm * batch_count n (Z.to_nat b)) (Some (w, K, c))) /\
  near_minimal_weighted T d (batch_factors C n (even_sizes_of n (batch_count n (Z.to_nat b)))) S w eps.
Proof.
  intros Hb HBx He. assert (Hm := count_pos n (Z.to_nat b) Hn ltac:(lia)). assert (PR := R2_nonneg T d bm S R2 Hn HO HSp). assert (Q := RR_le d C S L HC Hn R2). assert (PRR : 0 <= RR R2) by (eapply Qcle_trans; [exact PR|exact Q]).
  set (cs := batch_factors C n (even_sizes_of n (batch_count n (Z.to_nat b)))).
  destruct (any_fit T d C t0 a bm S (RR R2) (batch_count n (Z.to_nat b)) (fun v => weighted_value cs v (map (hv T (bm_s bm) v) S)) (fun S' => S' = S) L eps HC HT Hn Hm PRR Hd HO eq_refl) as [N HN].
  { intros S' ->. apply Permutation_refl. } { exact LW. } { exact (RR_start d C S L HC Hn R2 PR). } { intros v Hv. apply (weighted_above T d); auto. apply (factors_nonneg d C bm S L HC Hn Hd LW). } { exact He. }
  exists N. intros prm warm shuf HP HJ HB HS HSr HI. destruct (HN prm warm shuf HP) as [w [c [A1 [A2 A3]]]]; auto.
  - set (R' := RR R2) in *. clearbody R'. clear LW PRR HN. unfold cs. clear cs. destruct HP as [<- [<- [HM [HD [HLR HA]]]]]. apply (weighted_ok T d prm bm S R2 R'); auto.
  - intros it S' ->. apply HS.
  - right. split; [exact HJ|]. exists b. split; [exact HB|lia].
  - exists w, c. split; [exact A1|]. split; [exact A2|]. exists (map (hv T (bm_s bm) w) S). split; [apply (hinges_hv T d (bm_s bm) S w HO A2)|]. intros v hvs Hv HH.
    rewrite (hinges_are T d (bm_s bm) S v hvs HO Hv HH). apply A3. exact Hv.
Qed.
End theorems.
Lemma modes_agree {X Y} (T : task X Y) d C t0 (bm : bmodel X Y) S R2 L m eps : 0 < C -> 1 <= t0 -> (0 < length S)%nat -> sm_size (bm_s bm) = d ->
  oracle_exact (bm_s bm) T d S -> Forall (spread T R2) S -> length (start_weights d L) = d -> (0 < m)%nat -> 0 < eps ->
  exists N, forall a a' prm prm' warm warm' shuf shuf', averaged prm C t0 a -> averaged prm' C t0 a' -> equal_steps prm (length S) m -> equal_steps prm' (length S) m ->
  online_mode prm \/ batches_exact bm T d S -> online_mode prm' \/ batches_exact bm T d S -> sg_break prm = false \/ mini_mode prm -> sg_break prm' = false \/ mini_mode prm' ->
  (forall it S', Permutation (shuf it S') S') -> (forall it S', Permutation (shuf' it S') S') -> same_rate prm (length S) warm L -> same_rate prm' (length S) warm' L ->
  (N <= sg_max_iter prm)%nat -> (N <= sg_max_iter prm')%nat ->
  exists w c w' c', sg_fit prm bm shuf warm S L = Ok (SGLearner (sl_t L + sg_max_iter prm * m) (Some (w, C * ofN (length S), c))) /\
  sg_fit prm' bm shuf' warm' S L = Ok (SGLearner (sl_t L + sg_max_iter prm' * m) (Some (w', C * ofN (length S), c'))) /\ normsq (vsub w w') <= eps.
Proof.
  intros H1 H2 H3 H4 H5 H6 H7 H8 H9. set (e := eps / ofN 8). assert (Pe : 0 < e) by (apply Qcmult_pos; [exact H9|reflexivity]).
  destruct (avg_equal T d C t0 AvgNone bm S R2 L H1 H2 H3 H4 H5 H6 H7 m e H8 Pe) as [N1 A1].
  destruct (avg_equal T d C t0 AvgLinear bm S R2 L H1 H2 H3 H4 H5 H6 H7 m e H8 Pe) as [N2 A2].
  destruct (avg_equal T d C t0 AvgSquared bm S R2 L H1 H2 H3 H4 H5 H6 H7 m e H8 Pe) as [N3 A3].
  assert (AA : forall a prm warm shuf, averaged prm C t0 a -> equal_steps prm (length S) m -> online_mode prm \/ batches_exact bm T d S -> sg_break prm = false \/ mini_mode prm ->
    (forall it S', Permutation (shuf it S') S') -> same_rate prm (length S) warm L -> (Nat.max N1 (Nat.max N2 N3) <= sg_max_iter prm)%nat ->
    exists w c, sg_fit prm bm shuf warm S L = Ok (SGLearner (sl_t L + sg_max_iter prm * m) (Some (w, C * ofN (length S), c))) /\ near_minimal T d C S w e).
  { intros a prm warm shuf B1 B2 B3 B4 B5 B6 B7. destruct a; [apply A1|apply A2|apply A3]; auto; lia. }
  exists (Nat.max N1 (Nat.max N2 N3)). intros a a' prm prm' warm warm' shuf shuf' B1 B1' B2 B2' B3 B3' B4 B4' B5 B5' B6 B6' B7 B7'.
  destruct (AA a prm warm shuf B1 B2 B3 B4 B5 B6 B7) as [w [c [F1 F2]]]. destruct (AA a' prm' warm' shuf' B1' B2' B3' B4' B5' B6' B7') as [w' [c' [F1' F2']]].
  exists w, c, w', c'. split; [exact F1|]. split; [exact F1'|]. assert (Q := near_close T d (bm_s bm) C S w w' e e (Qclt_le_weak _ _ H1) H5 F2 F2').
  replace (ofN 4 * (e + e)) with eps in Q; [exact Q|]. unfold e. replace (ofN 8) with (ofN 4 + ofN 4) by (apply Qc_is_canon; vm_compute; reflexivity). field. discriminate.
Qed.

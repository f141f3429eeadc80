(** ** the results of fit *)
From Coq Require Import ZArith Permutation.
From Verif Require Import Model.Subgradient Proofs.Arrays Proofs.LossProofs Proofs.CRFProofs Proofs.LearnerProofs Proofs.QPProofs
  Proofs.NSlackProofs5 Proofs.OneSlackProofs Proofs.OneSlackProofs2 Proofs.SubgradientProofs Proofs.SubgradientProofs2 Proofs.SubgradientProofs3 Proofs.SubgradientProofs4 Proofs.SubgradientProofs5
  Spec.SubgradientRateSpec Proofs.SubgradientRate Proofs.SubgradientRate2 Proofs.SubgradientRate3 Proofs.SubgradientRate4 Proofs.SubgradientRate5.

Section out.
Context {X Y : Type} (T : task X Y) (d : nat) (C t0 : Qc) (bm : bmodel X Y) (S : list (X * Y)) (R : Qc) (m : nat) (f : list Qc -> Qc) (allowed : list (X * Y) -> Prop) (L : sg_learner).
Notation n := (length S).
Notation K := (C * ofN n).
Notation BB := (K * K * R).
Notation GG := ((1 + 1 + 1 + 1) * (K * K * R)).
Hypothesis HC : 0 < C.
Hypothesis HT : 1 <= t0.
Hypothesis Hn : (0 < n)%nat.
Hypothesis Hm : (0 < m)%nat.
Hypothesis HR : 0 <= R.
Hypothesis Hd : sm_size (bm_s bm) = d.
Hypothesis HO : oracle_exact (bm_s bm) T d S.
Hypothesis HAl : allowed S.
Hypothesis HAp : forall S', allowed S' -> Permutation S' S.
Hypothesis LW : length (start_weights d L) = d.
Hypothesis NW : normsq (start_weights d L) <= BB.

Lemma BB_nonneg : 0 <= BB.
Proof. apply Qcmult_nonneg; [apply Qc_sq_nonneg|exact HR]. Qed.
Lemma GG_nonneg : 0 <= GG.
Proof. apply Qcmult_nonneg; [discriminate|exact BB_nonneg]. Qed.
Lemma GG_sum : GG = BB + BB + (BB + BB).
Proof. ring. Qed.
Lemma start_time : 1 <= ofN (sl_t L) + t0.
Proof. assert (P := ofN_nonneg (sl_t L)). set (x := ofN (sl_t L)) in *. clearbody x. clear - P HT. qclra. Qed.
Lemma run prm warm shuf : pegasos prm C t0 -> epoch_ok T d prm bm n R m f allowed -> (forall it S', allowed S' -> allowed (shuf it S')) -> same_rate prm n warm L ->
  exists w c ws, sg_fit prm bm shuf warm S L = Ok (SGLearner (sl_t L + length ws * m) (Some (w, K, c))) /\ inball d BB w /\
  epochs d GG BB m f (ofN (sl_t L) + t0) (start_weights d L) ws w /\ (length ws <= sg_max_iter prm)%nat /\ ((0 < sg_max_iter prm)%nat -> ws <> []) /\
  (sg_break prm = false \/ mini_mode prm -> length ws = sg_max_iter prm).
Proof.
  intros [<- [<- [HM [HD [HLR HA]]]]] HE HS HSr.
  destruct (fit_epochs T d prm bm n R m f shuf allowed Hd HS) with (warm := warm) (S := S) (L := L) as [w [c [ws [A1 [A2 [A3 [A4 [A5 A6]]]]]]]]; auto.
  { intros S' w HS' Hw. assert (HP := HAp S' HS'). apply (objective_total T d prm bm n Hn S' w); [rewrite (Permutation_length HP); exact Hn| |exact Hw].
    apply exact_is_ok. apply (exact_incl _ _ _ _ _ HO), perm_incl, HP. }
  exists w, c, ws. split; [exact A1|]. split; [exact A2|]. split; [exact A3|]. split; [exact A4|]. split; [exact A5|]. intros [E|E]; apply A6; [left; exact E|right].
  intros S' st st' pos. apply mini_epoch_pos. exact E.
Qed.
Lemma rate_fit prm warm shuf : pegasos prm C t0 -> epoch_ok T d prm bm n R m f allowed -> (forall it S', allowed S' -> allowed (shuf it S')) -> same_rate prm n warm L ->
  exists w c E, sg_fit prm bm shuf warm S L = Ok (SGLearner (sl_t L + E * m) (Some (w, K, c))) /\ length w = d /\ normsq w <= BB /\ (E <= sg_max_iter prm)%nat /\ ((0 < sg_max_iter prm)%nat -> (0 < E)%nat) /\
  (sg_break prm = false \/ mini_mode prm -> E = sg_max_iter prm) /\
  forall r u, (0 < E)%nat -> 0 <= r ->
    GG * GG * (ofN (sl_t L) + t0 - 1 + ofN m * ofN m * strided t0 (sl_t L) m E) <= (ofN (sl_t L) + t0 + ofN E * ofN m - 1) * (r * r) -> length u = d ->
    f w <= f u + ((ofN (sl_t L) + t0 - 1) * normsq (vsub (start_weights d L) u) + ofN m * ofN m * GG * strided t0 (sl_t L) m E) / ((1 + 1) * (ofN m * ofN E)) + r.
Proof.
  intros HP HE HS HSr. destruct (run prm warm shuf HP HE HS HSr) as [w [c [ws [A1 [[A2 A2'] [A3 [A4 [A5 A6]]]]]]]].
  exists w, c, (length ws). split; [exact A1|]. split; [exact A2|]. split; [exact A2'|]. split; [exact A4|]. split; [intro P; specialize (A5 P); destruct ws; [congruence|cbn; lia]|]. split; [exact A6|].
  intros r u PE Hr HB Hu. rewrite <- divisors_strided in HB |- *.
  refine (proj1 (explicit d GG BB m f GG_nonneg Hm GG_sum (ofN (sl_t L) + t0) (start_weights d L) ws w r u start_time (conj LW NW) A3 _ Hr HB Hu)).
  intro E. subst ws. cbn in PE. lia.
Qed.
Lemma conv_fit eps : (forall v, length v = d -> normsq v <= f v + f v) -> 0 < eps ->
  exists N, forall prm warm shuf, pegasos prm C t0 -> epoch_ok T d prm bm n R m f allowed -> (forall it S', allowed S' -> allowed (shuf it S')) -> same_rate prm n warm L ->
  sg_break prm = false \/ mini_mode prm -> (N <= sg_max_iter prm)%nat ->
  exists w c, sg_fit prm bm shuf warm S L = Ok (SGLearner (sl_t L + sg_max_iter prm * m) (Some (w, K, c))) /\ length w = d /\ forall u, length u = d -> f w <= f u + eps.
Proof.
  intros HF He. destruct (converge d GG BB m f GG_nonneg Hm GG_sum (ofN (sl_t L) + t0) (start_weights d L) eps start_time (conj LW NW) HF He) as [N [PN HN]].
  exists N. intros prm warm shuf HP HE HS HSr HBr HI. destruct (run prm warm shuf HP HE HS HSr) as [w [c [ws [A1 [[A2 A2'] [A3 [A4 [A5 A6]]]]]]]].
  specialize (A6 HBr). exists w, c. split; [rewrite <- A6; exact A1|]. split; [exact A2|]. apply (HN ws w); [lia|exact A3].
Qed.
End out.

Lemma hv_nonneg {X Y} (T : task X Y) d (m : smodel X Y) S v : oracle_exact m T d S -> length v = d -> Forall (fun h => 0 <= h) (map (hv T m v) S).
Proof.
  intros HO Hv. apply Forall_forall. intros h Hh. apply in_map_iff in Hh. destruct Hh as [p [<- Hp]]. destruct (HO p Hp) as [HI HL].
  destruct (hv_hinge T m v p (HL v Hv)) as [_ H]. destruct HI as [A1 [A2 _]]. specialize (H (snd p) A1). unfold margin in H. rewrite A2 in H.
  set (a := dot v (t_feat T (fst p) (snd p))) in *. set (h := hv T m v p) in *. clearbody a h. clear - H. qclra.
Qed.
Lemma half_sq x : x / (1 + 1) + x / (1 + 1) = x.
Proof. field. discriminate. Qed.
Lemma comp_above {X Y} (T : task X Y) d (m : smodel X Y) k S v : oracle_exact m T d S -> 0 <= k -> length v = d -> normsq v <= comp T m k S v + comp T m k S v.
Proof.
  intros HO Hk Hv. assert (P := hv_nonneg T d m S v HO Hv). unfold comp, primal_value. assert (Q := lsum_nonneg _ (proj1 (Forall_forall _ _) P)). assert (Q2 := Qcmult_nonneg _ _ Hk Q). assert (E := half_sq (normsq v)).
  set (x := k * lsum (map (hv T m v) S)) in *. set (y := normsq v / (1 + 1)) in *. set (z := normsq v) in *. clearbody x y z. clear - Q2 E. qclra.
Qed.
Lemma weighted_above {X Y} (T : task X Y) d (m : smodel X Y) cs S v : oracle_exact m T d S -> Forall (fun c => 0 <= c) cs -> length v = d ->
  normsq v <= weighted_value cs v (map (hv T m v) S) + weighted_value cs v (map (hv T m v) S).
Proof.
  intros HO Hc Hv. assert (P := hv_nonneg T d m S v HO Hv). unfold weighted_value.
  assert (Q : 0 <= lsum (zipw Qcmult cs (map (hv T m v) S))).
  { apply lsum_nonneg, Forall_forall. revert P. generalize (map (hv T m v) S) as hs. induction Hc as [|c cs H1 H2 IH]; intros [|h hs] H; cbn [zipw]; try constructor.
    - apply Qcmult_nonneg; [exact H1|]. inversion H; auto. - apply IH. inversion H; auto. }
  assert (E := half_sq (normsq v)).
  set (x := lsum (zipw Qcmult cs (map (hv T m v) S))) in *. set (y := normsq v / (1 + 1)) in *. set (z := normsq v) in *. clearbody x y z. clear - Q E. qclra.
Qed.
Lemma spread_nonneg {X Y} (T : task X Y) d (m : smodel X Y) R2 S : (0 < length S)%nat -> oracle_exact m T d S -> Forall (spread T R2) S -> 0 <= R2.
Proof.
  intros HS HO H. destruct S as [|p S]; [cbn in HS; lia|]. destruct (HO p (or_introl eq_refl)) as [[A _] _]. inversion H as [|p' S' H1 H2]; subst.
  eapply Qcle_trans; [|apply (H1 (snd p) A)]. apply normsq_nonneg.
Qed.
Lemma inflate K R2 w : K <> 0 -> normsq w <= K * K * (R2 + normsq w / (K * K)) <-> 0 <= K * K * R2.
Proof.
  intro H. replace (K * K * (R2 + normsq w / (K * K))) with (K * K * R2 + normsq w) by (field; exact H).
  set (x := K * K * R2). set (y := normsq w). clearbody x y. split; intro; qclra.
Qed.

Section theorems.
Context {X Y : Type} (T : task X Y) (d : nat) (C t0 : Qc) (bm : bmodel X Y) (S : list (X * Y)) (R2 : Qc) (L : sg_learner).
Notation n := (length S).
Notation K := (C * ofN n).
Hypothesis HC : 0 < C.
Hypothesis HT : 1 <= t0.
Hypothesis Hn : (0 < n)%nat.
Hypothesis Hd : sm_size (bm_s bm) = d.
Hypothesis HO : oracle_exact (bm_s bm) T d S.
Hypothesis HSp : Forall (spread T R2) S.
Hypothesis LW : length (start_weights d L) = d.
Notation RR R := (R + normsq (start_weights d L) / (K * K)).

Lemma K_nz : K <> 0.
Proof. intro E. assert (P : 0 < K) by (apply Qcmult_pos; [exact HC|apply ofN_pos; exact Hn]). rewrite E in P. discriminate P. Qed.
Lemma R2_nonneg : 0 <= R2.
Proof. exact (spread_nonneg T d (bm_s bm) R2 S Hn HO HSp). Qed.
Lemma extra_nonneg : 0 <= normsq (start_weights d L) / (K * K).
Proof. apply Qcmult_nonneg; [apply normsq_nonneg|]. apply Qclt_le_weak, Qcinv_pos. apply Qcmult_pos; apply Qcmult_pos; try exact HC; apply ofN_pos; exact Hn. Qed.
Lemma RR_le R : R <= RR R.
Proof. assert (P := extra_nonneg). set (x := _ / _) in *. clearbody x. clear - P. qclra. Qed.
Lemma RR_start R : 0 <= R -> normsq (start_weights d L) <= K * K * RR R.
Proof. intro H. apply inflate; [exact K_nz|]. apply Qcmult_nonneg; [apply Qc_sq_nonneg|exact H]. Qed.
Lemma perm_shuf (shuf : nat -> list (X * Y) -> list (X * Y)) : (forall it S', Permutation (shuf it S') S') -> forall it S', Permutation S' S -> Permutation (shuf it S') S.
Proof. intros H it S' HP. eapply Permutation_trans; [apply H|exact HP]. Qed.
Lemma steps_pos prm m : equal_steps prm n m -> (0 < m)%nat.
Proof.
  intros [_ H]. destruct (sg_batch prm) as [b|]; [|lia]. destruct H as [[_ ->]|[_ H]]; [lia|]. destruct m; [cbn in H; lia|lia].
Qed.
Lemma near_of k w eps : length w = d -> (forall u, length u = d -> comp T (bm_s bm) k S w <= comp T (bm_s bm) k S u + eps) -> near_minimal T d k S w eps.
Proof.
  intros Hw H. split; [exact Hw|]. exists (map (hv T (bm_s bm) w) S). split; [apply (hinges_hv T d (bm_s bm) S w HO Hw)|]. intros v hvs Hv HH.
  rewrite (hinges_are T d (bm_s bm) S v hvs HO Hv HH). apply H. exact Hv.
Qed.
Lemma equal_converges m eps : (0 < m)%nat -> 0 < eps -> exists N, forall prm warm shuf, pegasos prm C t0 -> equal_steps prm n m -> online_mode prm \/ batches_exact bm T d S ->
  sg_break prm = false \/ mini_mode prm -> (forall it S', Permutation (shuf it S') S') -> same_rate prm n warm L -> (N <= sg_max_iter prm)%nat ->
  exists w c, sg_fit prm bm shuf warm S L = Ok (SGLearner (sl_t L + sg_max_iter prm * m) (Some (w, K, c))) /\ near_minimal T d C S w eps.
Proof.
  intros Hm He. assert (PR := R2_nonneg). assert (PRR : 0 <= RR R2) by (eapply Qcle_trans; [exact PR|apply RR_le]).
  destruct (conv_fit T d C t0 bm S (RR R2) m (comp T (bm_s bm) C S) (fun S' => Permutation S' S) L HC HT Hn Hm PRR Hd HO (Permutation_refl S) (fun S' H => H) LW (RR_start R2 PR) eps) as [N HN].
  { intros v Hv. apply (comp_above T d); auto. apply Qclt_le_weak. exact HC. } { exact He. }
  exists N. intros prm warm shuf HP HE HB HBr HS HSr HI. destruct (HN prm warm shuf HP) as [w [c [A1 [A2 A3]]]]; auto.
  - assert (Q := RR_le R2). set (R' := RR R2) in *. clearbody R'. clear LW PRR HN. destruct HP as [<- [<- [HM [HD [HLR HA]]]]]. apply (equal_ok T d prm bm S R2 R'); auto.
  - apply perm_shuf. exact HS.
  - exists w, c. split; [exact A1|]. apply near_of; auto.
Qed.
Lemma parallel_converges b eps : (0 < b)%nat -> 0 < eps -> exists N, forall prm warm shuf, pegasos prm C t0 -> parallel_steps prm b -> sg_break prm = false ->
  (forall it S', Permutation (shuf it S') S') -> same_rate prm n warm L -> (N <= sg_max_iter prm)%nat ->
  exists w c, sg_fit prm bm shuf warm S L = Ok (SGLearner (sl_t L + sg_max_iter prm * batch_count n b) (Some (w, K, c))) /\
  near_minimal T d (C * ofN n / ofN (batch_count n b)) S w eps.
Proof.
  intros Hb He. assert (Hm := count_pos n b Hn Hb). set (R := ofN b * ofN b * R2). assert (PR : 0 <= R) by (apply Qcmult_nonneg; [apply Qc_sq_nonneg|exact R2_nonneg]).
  assert (PRR : 0 <= RR R) by (eapply Qcle_trans; [exact PR|apply RR_le]).
  destruct (conv_fit T d C t0 bm S (RR R) (batch_count n b) (comp T (bm_s bm) (K / ofN (batch_count n b)) S) (fun S' => Permutation S' S) L HC HT Hn Hm PRR Hd HO (Permutation_refl S) (fun S' H => H) LW (RR_start R PR) eps) as [N HN].
  { intros v Hv. apply (comp_above T d); auto. apply Qcmult_nonneg; [apply Qcmult_nonneg; [apply Qclt_le_weak; exact HC|apply ofN_nonneg]|]. apply Qclt_le_weak, Qcinv_pos, ofN_pos. exact Hm. } { exact He. }
  exists N. intros prm warm shuf HP HE HBr HS HSr HI. destruct (HN prm warm shuf HP) as [w [c [A1 [A2 A3]]]]; auto.
  - assert (Q := RR_le R). assert (P2 := R2_nonneg). set (R' := RR R) in *. clearbody R'. clear LW PRR HN. destruct HP as [<- [<- [HM [HD [HLR HA]]]]]. apply (par_ok T d prm bm S R2 R'); auto.
  - apply perm_shuf. exact HS.
  - exists w, c. split; [exact A1|]. apply near_of; auto.
Qed.
Lemma factors_nonneg sizes : Forall (fun c => 0 <= c) (batch_factors C n sizes).
Proof.
  unfold batch_factors. apply Forall_forall. intros c Hc. apply in_concat in Hc. destruct Hc as [l [H1 H2]]. apply in_map_iff in H1. destruct H1 as [k [<- _]]. apply repeat_spec in H2. subst c.
  apply Qcmult_nonneg; [apply Qcmult_nonneg|]; [apply Qcmult_nonneg; [apply Qclt_le_weak; exact HC|apply ofN_nonneg]| |].
  - destruct k; [discriminate|]. apply Qclt_le_weak, Qcinv_pos, ofN_pos. lia.
  - destruct (length sizes); [discriminate|]. apply Qclt_le_weak, Qcinv_pos, ofN_pos. lia.
Qed.
Lemma uneven_converges b eps : (1 < b)%Z -> batches_exact bm T d S -> 0 < eps -> exists N, forall prm warm shuf, pegasos prm C t0 -> sg_jobs prm = 1%Z -> sg_batch prm = Some b ->
  (forall it S', shuf it S' = S') -> same_rate prm n warm L -> (N <= sg_max_iter prm)%nat ->
  exists w c, sg_fit prm bm shuf warm S L = Ok (SGLearner (sl_t L + sg_max_iter prm * batch_count n (Z.to_nat b)) (Some (w, K, c))) /\
  near_minimal_weighted T d (batch_factors C n (even_sizes_of n (batch_count n (Z.to_nat b)))) S w eps.
Proof.
  intros Hb HBx He. assert (Hm := count_pos n (Z.to_nat b) Hn ltac:(lia)). assert (PR := R2_nonneg). assert (PRR : 0 <= RR R2) by (eapply Qcle_trans; [exact PR|apply RR_le]).
  set (cs := batch_factors C n (even_sizes_of n (batch_count n (Z.to_nat b)))).
  destruct (conv_fit T d C t0 bm S (RR R2) (batch_count n (Z.to_nat b)) (fun v => weighted_value cs v (map (hv T (bm_s bm) v) S)) (fun S' => S' = S) L HC HT Hn Hm PRR Hd HO eq_refl) with (eps := eps) as [N HN].
  { intros S' ->. apply Permutation_refl. } { exact LW. } { exact (RR_start R2 PR). } { intros v Hv. apply (weighted_above T d); auto. apply factors_nonneg. } { exact He. }
  exists N. intros prm warm shuf HP HJ HB HS HSr HI. destruct (HN prm warm shuf HP) as [w [c [A1 [A2 A3]]]]; auto.
  - assert (Q := RR_le R2). set (R' := RR R2) in *. clearbody R'. clear LW PRR HN. unfold cs. clear cs. destruct HP as [<- [<- [HM [HD [HLR HA]]]]]. apply (weighted_ok T d prm bm S R2 R'); auto.
  - intros it S' ->. apply HS.
  - right. split; [exact HJ|]. exists b. split; [exact HB|lia].
  - exists w, c. split; [exact A1|]. split; [exact A2|]. exists (map (hv T (bm_s bm) w) S). split; [apply (hinges_hv T d (bm_s bm) S w HO A2)|]. intros v hvs Hv HH.
    rewrite (hinges_are T d (bm_s bm) S v hvs HO Hv HH). apply A3. exact Hv.
Qed.
Lemma equal_rate m prm warm shuf : normsq (start_weights d L) <= K * K * R2 -> pegasos prm C t0 -> equal_steps prm n m -> online_mode prm \/ batches_exact bm T d S ->
  (forall it S', Permutation (shuf it S') S') -> same_rate prm n warm L ->
  let G := (1 + 1 + 1 + 1) * (K * K * R2) in
  exists w c E, sg_fit prm bm shuf warm S L = Ok (SGLearner (sl_t L + E * m) (Some (w, K, c))) /\ length w = d /\ normsq w <= K * K * R2 /\
  (E <= sg_max_iter prm)%nat /\ ((0 < sg_max_iter prm)%nat -> (0 < E)%nat) /\ (sg_break prm = false \/ mini_mode prm -> E = sg_max_iter prm) /\
  forall r u hs hu, (0 < E)%nat -> 0 <= r ->
    G * G * (ofN (sl_t L) + t0 - 1 + ofN m * ofN m * strided t0 (sl_t L) m E) <= (ofN (sl_t L) + t0 + ofN E * ofN m - 1) * (r * r) ->
    length u = d -> hinges T w S hs -> hinges T u S hu ->
    primal_value C w hs <= primal_value C u hu +
      ((ofN (sl_t L) + t0 - 1) * normsq (vsub (start_weights d L) u) + ofN m * ofN m * G * strided t0 (sl_t L) m E) / ((1 + 1) * (ofN m * ofN E)) + r.
Proof.
  intros NW HP HE HB HS HSr G. assert (Hm := steps_pos prm m HE).
  destruct (rate_fit T d C t0 bm S R2 m (comp T (bm_s bm) C S) (fun S' => Permutation S' S) L HC HT Hn Hm R2_nonneg Hd HO (Permutation_refl S) (fun S' H => H) LW NW prm warm shuf HP) as [w [c [E [A1 [A2 [A3 [A4 [A5 [A6 A7]]]]]]]]]; auto.
  - assert (P2 := R2_nonneg). clear G NW. destruct HP as [<- [<- [HM [HD [HLR HA]]]]]. apply (equal_ok T d prm bm S R2 R2); auto. apply Qcle_refl.
  - apply perm_shuf. exact HS.
  - exists w, c, E. split; [exact A1|]. split; [exact A2|]. split; [exact A3|]. split; [exact A4|]. split; [exact A5|]. split; [exact A6|].
    intros r u hs hu PE Hr HB' Hu H1 H2. rewrite (hinges_are T d (bm_s bm) S w hs HO A2 H1), (hinges_are T d (bm_s bm) S u hu HO Hu H2). apply (A7 r u); auto.
Qed.
End theorems.

(** ** the objective is strongly convex: nearly minimal weights are close to each other *)
Section close.
Context {X Y : Type} (T : task X Y) (d : nat) (m : smodel X Y).
Definition half (w v : list Qc) : list Qc := vscale (/ (1 + 1)) (vadd w v).
Lemma half_length w v : length w = d -> length v = d -> length (half w v) = d.
Proof. intros Hw Hv. unfold half. rewrite vscale_length, vadd_length; congruence. Qed.
Lemma half_dot w v x : length w = length v -> dot (half w v) x = (dot w x + dot v x) / (1 + 1).
Proof. intro H. unfold half. rewrite dot_vscale_l, dot_vadd_l by exact H. field. discriminate. Qed.
Lemma half_hinge w v x y h1 h2 h : length w = length v -> is_hinge T w x y h1 -> is_hinge T v x y h2 -> is_hinge T (half w v) x y h -> h + h <= h1 + h2.
Proof.
  intros HL [_ H1] [_ H2] [[y' [L E]] _]. specialize (H1 y' L). specialize (H2 y' L). rewrite <- E. unfold margin in *. rewrite !half_dot by exact HL.
  set (a := dot w (t_feat T x y)) in *. set (b := dot w (t_feat T x y')) in *. set (a' := dot v (t_feat T x y)) in *. set (b' := dot v (t_feat T x y')) in *. set (l := t_loss T y y') in *. clearbody a b a' b' l. clear - H1 H2.
  match goal with |- ?z <= _ => replace z with (l - (a - b) + (l - (a' - b'))) by (field; discriminate) end. qclra.
Qed.
Lemma half_hinges w v : length w = length v -> forall S h1 h2 h, hinges T w S h1 -> hinges T v S h2 -> hinges T (half w v) S h -> lsum h + lsum h <= lsum h1 + lsum h2.
Proof.
  intros HL S h1 h2 h H1. revert h2 h. induction H1 as [|p a S h1 A1 A2 IH]; intros h2 h H2 H; inversion H2; inversion H; subst; cbn [lsum]; [discriminate|].
  match goal with B1 : is_hinge T v _ _ ?b, B2 : is_hinge T (half w v) _ _ ?c, C1 : Forall2 _ S ?l1, C2 : Forall2 _ S ?l2 |- _ => idtac end.
  match goal with B1 : is_hinge T v _ _ _, B2 : is_hinge T (half w v) _ _ _ |- _ => assert (Q := half_hinge w v _ _ _ _ _ HL A1 B1 B2) end.
  match goal with C1 : Forall2 (fun q h => is_hinge T v (fst q) (snd q) h) S _, C2 : Forall2 (fun q h => is_hinge T (half w v) (fst q) (snd q) h) S _ |- _ => assert (Q2 := IH _ _ C1 C2) end.
  clear - Q Q2. qclra.
Qed.
Lemma half_norm w v : length w = length v -> normsq (half w v) = (normsq w + normsq v) / (1 + 1) - normsq (vsub w v) / ((1 + 1) * (1 + 1)).
Proof.
  intro H. unfold normsq. rewrite half_dot by exact H. rewrite (dot_comm w (half w v)), (dot_comm v (half w v)), !half_dot by exact H. rewrite dot_vsub_l, !dot_vsub_r by auto. rewrite (dot_comm v w). field. split; discriminate.
Qed.
Lemma near_close C S w v e1 e2 : 0 <= C -> oracle_exact m T d S -> near_minimal T d C S w e1 -> near_minimal T d C S v e2 -> normsq (vsub w v) <= ofN 4 * (e1 + e2).
Proof.
  intros HC HO [Hw [h1 [H1 N1]]] [Hv [h2 [H2 N2]]]. assert (HL : length w = length v) by congruence. assert (Hu := half_length w v Hw Hv).
  assert (H := hinges_hv T d m S (half w v) HO Hu). set (h := map (hv T m (half w v)) S) in *. specialize (N1 _ _ Hu H). specialize (N2 _ _ Hu H).
  assert (Q := half_hinges w v HL S h1 h2 h H1 H2 H). unfold primal_value in *. rewrite (half_norm w v HL) in *.
  replace (ofN 4) with ((1 + 1) * (1 + 1)) by (apply Qc_is_canon; vm_compute; reflexivity).
  assert (QC : C * lsum h + C * lsum h <= C * lsum h1 + C * lsum h2).
  { rewrite <- !Qcmult_plus_distr_r. rewrite !(Qcmult_comm C). apply Qcmult_le_compat_r; [exact Q|exact HC]. }
  set (x := C * lsum h) in *. set (x1 := C * lsum h1) in *. set (x2 := C * lsum h2) in *. set (a := normsq w) in *. set (b := normsq v) in *. set (D := normsq (vsub w v)) in *. clearbody x x1 x2 a b D h. clear - N1 N2 QC.
  assert (E1 : ((a + b) / (1 + 1) - D / ((1 + 1) * (1 + 1))) / (1 + 1) + ((a + b) / (1 + 1) - D / ((1 + 1) * (1 + 1))) / (1 + 1) = a / (1 + 1) + b / (1 + 1) - D / ((1 + 1) * (1 + 1))) by (field; repeat split; discriminate).
  assert (E2 : D = (1 + 1) * (1 + 1) * (D / ((1 + 1) * (1 + 1)))) by (field; repeat split; discriminate).
  rewrite E2. set (g := D / ((1 + 1) * (1 + 1))) in *. set (f := ((a + b) / (1 + 1) - g) / (1 + 1)) in *. set (a2 := a / (1 + 1)) in *. set (b2 := b / (1 + 1)) in *.
  assert (Z : g <= e1 + e2) by (clearbody g f a2 b2; clear E2; qclra).
  rewrite !(Qcmult_comm ((1 + 1) * (1 + 1))). apply Qcmult_le_compat_r; [exact Z|discriminate].
Qed.
End close.

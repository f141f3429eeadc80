(** Convergence of the loop of fit, whatever the kind of its steps. *)
From Coq Require Import ZArith Permutation.
From Verif Require Import Model.Subgradient Proofs.Arrays Proofs.LossProofs Proofs.CRFProofs Proofs.LearnerProofs Proofs.QPProofs
  Proofs.NSlackProofs5 Proofs.OneSlackProofs Proofs.OneSlackProofs2 Proofs.SubgradientProofs Proofs.SubgradientProofs2 Proofs.SubgradientProofs3 Proofs.SubgradientProofs4 Proofs.SubgradientProofs5
  Spec.SubgradientRateSpec Proofs.SubgradientRate Proofs.SubgradientRate2 Proofs.SubgradientRate3.

Lemma diff_sq a b : length a = length b -> normsq (vsub a b) <= normsq a + normsq a + (normsq b + normsq b).
Proof.
  intro H. assert (Q := normsq_nonneg (vadd a b)). unfold normsq in *. rewrite dot_vadd_l, !dot_vadd_r in Q by auto. rewrite dot_vsub_l, !dot_vsub_r by auto. rewrite (dot_comm b a) in *.
  set (x := dot a a) in *. set (y := dot a b) in *. set (z := dot b b) in *. clearbody x y z. clear H. qclra.
Qed.

Section conv.
Context (d : nat) (G B : Qc) (m : nat) (f : list Qc -> Qc).
Hypothesis HG : 0 <= G.
Hypothesis Hm : (0 < m)%nat.
Hypothesis HGB : G = B + B + (B + B).
Lemma diameter v v' : inball d B v -> inball d B v' -> normsq (vsub v v') <= G.
Proof.
  intros [L1 N1] [L2 N2]. assert (Q := diff_sq v v' ltac:(congruence)). rewrite HGB. set (x := normsq (vsub v v')) in *. set (a := normsq v) in *. set (b := normsq v') in *. clearbody x a b. clear - Q N1 N2. qclra.
Qed.
Lemma epochs_slope s w ws w' : inball d B w -> epochs d G B m f s w ws w' -> ws <> [] -> exists g, slope d G f w' g.
Proof.
  intros HW H NE. assert (IB := proj1 (epochs_ball d G B m f ws s w w' HW H)). destruct ws as [|x ws]; [congruence|]. cbn [epochs] in H. destruct H as [_ [l [w1 [HL [_ [HF [HV _]]]]]]].
  exact (mean_slope d G B HG m f Hm l w' HL HF IB HV).
Qed.
Lemma explicit s w ws w' r u : 1 <= s -> inball d B w -> epochs d G B m f s w ws w' -> ws <> [] -> 0 <= r ->
  G * G * (s - 1 + ofN m * ofN m * divisors m s (length ws)) <= (s + ofN (length ws) * ofN m - 1) * (r * r) -> length u = d ->
  f w' <= f u + ((s - 1) * normsq (vsub w u) + ofN m * ofN m * G * divisors m s (length ws)) / ((1 + 1) * (ofN m * ofN (length ws))) + r /\ f w' <= f w + r.
Proof.
  intros Hs HW H NE Hr HR Hu. refine (last_iterate d G B HG m f Hm s w ws w' G Hs HW H NE diameter (epochs_slope s w ws w' HW H NE) r Hr _ u Hu).
  eapply Qcle_trans; [|exact HR]. match goal with |- ?a <= ?b => replace a with b; [apply Qcle_refl|] end. ring.
Qed.
Lemma converge s w eps : 1 <= s -> inball d B w -> (forall v, length v = d -> normsq v <= f v + f v) -> 0 < eps ->
  exists N, (0 < N)%nat /\ forall ws w', (N <= length ws)%nat -> epochs d G B m f s w ws w' -> forall u, length u = d -> f w' <= f u + eps.
Proof.
  intros Hs HW HF He. assert (PM := ofN_pos m Hm).
  set (r := eps / (1 + 1)). assert (Pr : 0 < r) by (apply Qcmult_pos; [exact He|reflexivity]). assert (ER : r + r = eps) by (unfold r; field; discriminate).
  set (Z := normsq w + normsq w + (f w + f w + (f w + f w))).
  assert (S1 : 0 <= s - 1) by (clear - Hs; qclra). assert (M2 : 0 <= ofN m * ofN m) by apply Qc_sq_nonneg.
  destruct (divisors_slow m (G * G * (s - 1)) (G * G * (ofN m * ofN m)) (ofN m * (r * r)) Hm) as [N1 [P1 H1]].
  { apply Qcmult_nonneg; [apply Qc_sq_nonneg|exact M2]. } { apply Qcmult_pos; [exact PM|]. apply Qcmult_pos; exact Pr. }
  destruct (divisors_slow m ((s - 1) * Z) (ofN m * ofN m * G) (ofN m * eps) Hm) as [N2 [P2 H2]].
  { apply Qcmult_nonneg; auto. } { apply Qcmult_pos; auto. }
  exists (Nat.max N1 N2). split; [lia|]. intros ws w' HN H u Hu. specialize (H1 (length ws) s ltac:(lia) Hs). specialize (H2 (length ws) s ltac:(lia) Hs).
  assert (NE : ws <> []) by (intro E; subst ws; cbn in HN; lia). assert (PL : (0 < length ws)%nat) by lia. assert (PE := ofN_pos _ PL).
  destruct (explicit s w ws w' r u Hs HW H NE (Qclt_le_weak _ _ Pr)) as [A1 A2]; [|exact Hu|].
  { replace (G * G * (s - 1 + ofN m * ofN m * divisors m s (length ws))) with (G * G * (s - 1) + G * G * (ofN m * ofN m) * divisors m s (length ws)) by ring.
    eapply Qcle_trans; [exact H1|]. replace ((s + ofN (length ws) * ofN m - 1) * (r * r)) with ((s - 1) * (r * r) + ofN m * (r * r) * ofN (length ws)) by ring.
    assert (Q : 0 <= (s - 1) * (r * r)) by (apply Qcmult_nonneg; [exact S1|apply Qc_sq_nonneg]). set (x := (s - 1) * (r * r)) in *. set (y := ofN m * (r * r) * ofN (length ws)). clearbody x y. clear - Q. qclra. }
  destruct (Qcleb_spec (f w) (f u)) as [Q|Q]; [rewrite <- ER; clearbody r; clear - A2 Q Pr; qclra|].
  assert (NZ : normsq (vsub w u) <= Z).
  { assert (D := diff_sq w u ltac:(rewrite Hu; apply HW)). assert (HU := HF u Hu). unfold Z. set (x := normsq (vsub w u)) in *. set (a := normsq w) in *. set (b := normsq u) in *. clearbody x a b. clear - D HU Q. qclra. }
  assert (BD : ((s - 1) * normsq (vsub w u) + ofN m * ofN m * G * divisors m s (length ws)) / ((1 + 1) * (ofN m * ofN (length ws))) <= r).
  { assert (PK : 0 < (1 + 1) * (ofN m * ofN (length ws))) by (apply Qcmult_pos; [reflexivity|apply Qcmult_pos; auto]).
    apply Qcle_trans with (ofN m * eps * ofN (length ws) / ((1 + 1) * (ofN m * ofN (length ws)))).
    - apply Qcmult_le_compat_r; [|apply Qclt_le_weak, Qcinv_pos; exact PK]. eapply Qcle_trans; [|exact H2]. apply Qcplus_le_compat; [|apply Qcle_refl].
      rewrite !(Qcmult_comm (s - 1)). apply Qcmult_le_compat_r; auto.
    - unfold r. match goal with |- ?a <= ?b => replace a with b; [apply Qcle_refl|] end. assert (NM := ofN_neq0 m Hm). assert (NL := ofN_neq0 _ PL). assert (N2' : 1 + 1 <> 0) by discriminate.
      set (a := ofN m) in *. set (b := ofN (length ws)) in *. clearbody a b. field. auto. }
  match type of BD with ?z <= _ => set (x := z) in * end. clearbody x. rewrite <- ER. clearbody r. clear - A1 BD. qclra.
Qed.
End conv.

Section fit.
Context {X Y : Type} (T : task X Y) (d : nat) (prm : sg_params) (bm : bmodel X Y) (n : nat) (R : Qc) (m : nat) (f : list Qc -> Qc) (shuf : nat -> list (X * Y) -> list (X * Y))
  (allowed : list (X * Y) -> Prop).
Notation K := (sg_C prm * ofN n).
Notation BB := (K * K * R).
Notation GG := ((1 + 1 + 1 + 1) * (K * K * R)).
Hypothesis Hd : sm_size (bm_s bm) = d.
Hypothesis HSh : forall it S, allowed S -> allowed (shuf it S).
Hypothesis HOb : forall S w, allowed S -> length w = d -> exists o, sg_objective prm bm S w = Ok o.
Hypothesis HEp : forall S st, allowed S -> keeps d prm n R st -> exists st' pos Bs k, sg_epoch prm bm K S st = Ok (st', pos) /\
  walk T d prm n R k Bs st st' /\ Forall (fun B => steppable T d prm (bm_s bm) n R (k B) B) Bs /\ length Bs = m /\
  forall v, length v = d -> lsum (map (fun F => F v) (map (fun B => comp T (bm_s bm) (k B) B) Bs)) = ofN m * f v.

Lemma loop_epochs : forall k it S st c, allowed S -> keeps d prm n R st -> exists st' c' S' ws,
  sg_loop prm bm K shuf k it S st c = Ok (st', c', S') /\ allowed S' /\ keeps d prm n R st' /\
  epochs d GG BB m f (ofN (sg_t st) + sg_t0 prm) (sg_w st) ws (sg_w st') /\ sg_t st' = (sg_t st + length ws * m)%nat /\ (length ws <= k)%nat /\ ((0 < k)%nat -> ws <> []) /\
  (sg_break prm = false \/ (forall S st st' pos, sg_epoch prm bm K S st = Ok (st', pos) -> pos <> 0%Z) -> length ws = k).
Proof.
  induction k as [|k IH]; intros it S st c HAl HK; cbn [sg_loop].
  - exists st, c, S, []. split; [reflexivity|]. split; [exact HAl|]. split; [exact HK|]. split; [reflexivity|]. split; [cbn; lia|]. split; [cbn; lia|]. split; [lia|reflexivity].
  - assert (HAl' := HSh it S HAl). destruct (HEp (shuf it S) st HAl' HK) as [st1 [pos [Bs [kk [E1 [E2 [E3 [E4 E5]]]]]]]]. rewrite E1. cbn [bind fst snd].
    destruct (walk_descent T d prm (bm_s bm) n R kk Bs st st1 HK E3 E2) as [HK1 [ET [l [L1 [L2 L3]]]]].
    assert (LL : length l = m) by (rewrite <- E4, <- (map_length fst l), L1, map_length; reflexivity). rewrite E4 in ET.
    assert (LV : forall v, length v = d -> vals l v = ofN m * f v) by (intros v Hv; rewrite (vals_map l _ v L1); apply E5; exact Hv).
    destruct ((pos =? 0)%Z && sg_break prm)%bool eqn:EB.
    + exists st1, c, (shuf it S), [sg_w st]. split; [reflexivity|]. split; [exact HAl'|]. split; [exact HK1|]. split.
      { cbn [epochs]. split; [reflexivity|]. exists l, (sg_w st1). auto. }
      split; [cbn [length]; lia|]. split; [cbn; lia|]. split; [discriminate|]. intros [E|E].
      * rewrite E, Bool.andb_false_r in EB. discriminate EB.
      * apply E in E1. apply Bool.andb_true_iff in EB. destruct EB as [EB _]. apply Z.eqb_eq in EB. contradiction.
    + destruct (HOb (shuf it S) (sg_self st1) HAl') as [o EO]; [apply HK1|]. rewrite EO. cbn [bind].
      destruct (IH (Datatypes.S it) (shuf it S) st1 (c ++ [o]) HAl' HK1) as [st' [c' [S' [ws [F1 [F2 [F3 [F4 [F5 [F6 [F7 F8]]]]]]]]]]].
      exists st', c', S', (sg_w st :: ws). split; [exact F1|]. split; [exact F2|]. split; [exact F3|]. split.
      { cbn [epochs]. split; [reflexivity|]. exists l, (sg_w st1). split; [exact LL|]. split; [exact L2|]. split; [exact L3|]. split; [exact LV|].
        rewrite ET, ofN_plus in F4. replace (ofN (sg_t st) + sg_t0 prm + ofN m) with (ofN (sg_t st) + ofN m + sg_t0 prm) by ring. exact F4. }
      split; [rewrite F5, ET; cbn [length]; lia|]. split; [cbn [length]; lia|]. split; [discriminate|]. intro E. cbn [length]. rewrite (F8 E). reflexivity.
Qed.
Lemma fit_epochs warm S L : sg_avg prm = AvgNone -> allowed S -> length S = n -> sg_lr prm = None -> same_rate prm n warm L ->
  length (start_weights d L) = d -> normsq (start_weights d L) <= BB -> exists w c ws,
  sg_fit prm bm shuf warm S L = Ok (SGLearner (sl_t L + length ws * m) (Some (w, K, c))) /\ inball d BB w /\
  epochs d GG BB m f (ofN (sl_t L) + sg_t0 prm) (start_weights d L) ws w /\ (length ws <= sg_max_iter prm)%nat /\ ((0 < sg_max_iter prm)%nat -> ws <> []) /\
  (sg_break prm = false \/ (forall S st st' pos, sg_epoch prm bm K S st = Ok (st', pos) -> pos <> 0%Z) -> length ws = sg_max_iter prm).
Proof.
  intros HAv HAl HL HLR HW LW NW. set (st0 := fit_start bm L). assert (E0 : st0 = SGState (start_weights d L) (start_weights d L) (vzero d) (sl_t L)) by (unfold st0, fit_start, start_weights; rewrite Hd; reflexivity).
  assert (HK : keeps d prm n R st0). { rewrite E0. split; [split; [exact LW|split; [exact LW|apply vzero_length]]|]. split; [exact NW|reflexivity]. }
  assert (LC : exists c0, (if warm then match sl_fitted L with Some (_, lr, c) => Ok (lr, c) | None => Err AttributeError end
      else Ok (match sg_lr prm with None => sg_C prm * ofN (length S) | Some r => r end, [])) = Ok (K, c0)).
  { destruct warm; [destruct (HW eq_refl) as [w [c E]]; rewrite E; eauto|]. rewrite HLR, HL. eauto. }
  destruct LC as [c0 LC]. destruct (loop_epochs (sg_max_iter prm) 0 S st0 c0 HAl HK) as [st' [c' [S' [ws [F1 [F2 [F3 [F4 [F5 [F6 [F7 F8]]]]]]]]]]].
  destruct (HOb S' (sg_self st') F2) as [o EO]; [apply F3|]. destruct F3 as [SH [NS SE]]. specialize (SE HAv).
  exists (sg_self st'), (c' ++ [o]), ws. split.
  - unfold sg_fit. rewrite LC. cbn [bind fst snd]. change (SGState _ _ _ _) with st0. rewrite F1. cbn [bind]. rewrite EO. cbn [bind]. rewrite F5. rewrite E0. reflexivity.
  - rewrite SE. split; [split; [apply SH|exact NS]|]. rewrite E0 in F4. cbn [sg_t sg_w] in F4. auto.
Qed.
End fit.

From Verif Require Import Model.QP Spec.QPSpec Spec.OneSlackSpec Spec.CuttingPlaneSpec Proofs.Arrays Proofs.LossProofs Proofs.LearnerProofs
  Proofs.QPProofs Proofs.QPProofs2 Proofs.QPProofs3 Proofs.NSlackProofs Proofs.OneSlackQP.

Lemma lsum_vscale k l : lsum (vscale k l) = k * lsum l.
Proof. unfold vscale. induction l; cbn [map lsum]; [ring|]. rewrite IHl. ring. Qed.
Lemma comb_app d a psis b psi : length a = length psis -> length psi = d ->
  comb d (a ++ [b]) (psis ++ [psi]) = vadd (comb d a psis) (vscale b psi).
Proof.
  intros Ha Hp. apply vec_ext.
  - rewrite vadd_length; rewrite ?vscale_length, !comb_length; auto.
  - intros i Hi. rewrite comb_length in Hi. rewrite get1_vadd by (rewrite vscale_length, comb_length; auto). rewrite get1_vscale.
    unfold comb. rewrite !get1_tab1 by auto. rewrite app_length. cbn [length]. rewrite Nat.add_1_r, sumn_S. f_equal.
    + apply sumn_ext. intros c Hc. unfold get1 at 1 2. rewrite !app_nth1 by lia. reflexivity.
    + assert (E1 : get1 (a ++ [b]) (length psis) = b) by (rewrite <- Ha; apply nth_middle).
      assert (E2 : nth (length psis) (psis ++ [psi]) [] = psi) by apply nth_middle. rewrite E1, E2. reflexivity.
Qed.
Lemma comb_vscale d t a psis : length a = length psis -> comb d (vscale t a) psis = vscale t (comb d a psis).
Proof.
  intros Ha. apply vec_ext; [rewrite vscale_length, !comb_length; auto|]. intros i Hi. rewrite comb_length in Hi.
  rewrite get1_vscale. unfold comb. rewrite !get1_tab1 by auto. rewrite <- sumn_mult_l. apply sumn_ext. intros c Hc. rewrite get1_vscale. ring.
Qed.
Lemma normsq_sum_le a : (forall c, (c < length a)%nat -> 0 <= get1 a c) -> normsq a <= lsum a * lsum a.
Proof.
  induction a as [|x a IH]; intro H. { vm_compute. discriminate. }
  unfold normsq in *. rewrite dot_cons. cbn [lsum].
  assert (H0 : 0 <= x) by (apply (H O); cbn; lia).
  assert (HT : forall c, (c < length a)%nat -> 0 <= get1 a c) by (intros c Hc; apply (H (S c)); cbn; lia).
  specialize (IH HT). assert (L : 0 <= lsum a). { rewrite lsum_get. apply sumn_nonneg. auto. }
  assert (P := Qcmult_nonneg _ _ H0 L). set (l := lsum a) in *. set (q := dot a a) in *. clearbody l q.
  replace ((x + l) * (x + l)) with (x * x + (x * l + x * l) + l * l) by ring. set (y := x * l) in *. set (z := x * x). set (v := l * l) in *. clearbody y z v. qclra.
Qed.

Section progress.
Variables (d : nat) (K R2 eps : Qc).
Hypothesis HK : 0 < K.
Hypothesis HR : 0 < R2.
Hypothesis HE : 0 < eps.

Lemma weights_small cs a : Forall (fun c : ocon => length (fst c) = d) cs -> Forall (fun c => normsq (fst c) <= R2) cs -> dual1_ok d K None cs a ->
  normsq (comb d a (map fst cs)) <= K * K * R2.
Proof.
  intros HF HB [La [H0 [HS _]]]. assert (HF' := ocons_len d cs HF). set (w := comb d a (map fst cs)).
  assert (Lw : length w = d) by apply comb_length.
  assert (E : normsq w = sumn (length cs) (fun c => get1 a c * dot (nth c (map fst cs) []) w)).
  { unfold normsq. unfold w at 1. rewrite dot_comb by auto. rewrite map_length. reflexivity. }
  assert (S1 : K * normsq w <= K * (K * K * R2 / (1 + 1) + normsq w / (1 + 1))).
  { rewrite E at 1. rewrite <- sumn_mult_l. set (z := K * K * R2 / (1 + 1) + normsq w / (1 + 1)).
    replace (K * z) with (sumn (length cs) (fun c => z * get1 a c)) by (rewrite sumn_mult_l, <- La, <- lsum_get, HS; ring). unfold z. apply sumn_le.
    intros c Hc. specialize (H0 c Hc).
    assert (LP : length (nth c (map fst cs) []) = d). { rewrite Forall_forall in HF'. apply HF', nth_In. rewrite map_length; auto. }
    assert (A := half_am (vscale K (nth c (map fst cs) [])) w ltac:(rewrite vscale_length; congruence)).
    rewrite dot_vscale_l in A.
    assert (NB : normsq (nth c (map fst cs) []) <= R2). { rewrite (nth_map_in fst _ c ([], 0)) by auto. rewrite Forall_forall in HB. apply HB, nth_In; auto. }
    assert (NV : normsq (vscale K (nth c (map fst cs) [])) <= K * K * R2).
    { unfold normsq. rewrite dot_vscale_l, dot_vscale_r. fold (normsq (nth c (map fst cs) [])). rewrite Qcmult_assoc, (Qcmult_comm (K * K)), (Qcmult_comm (K * K)).
      apply Qcmult_le_compat_r; auto. apply Qc_sq_nonneg. }
    set (q := dot _ w) in *. set (u := normsq (vscale _ _)) in *. set (v := K * K * R2) in *. set (x := normsq w) in *. clearbody q u v x.
    replace (K * (get1 a c * q)) with ((K * q) * get1 a c) by ring. 
    apply Qcmult_le_compat_r; auto. set (kq := K * q) in *. clearbody kq.
    replace (u / (1 + 1) + x / (1 + 1)) with ((u + x) / (1 + 1)) in A by (field; discriminate).
    replace (v / (1 + 1) + x / (1 + 1)) with ((v + x) / (1 + 1)) by (field; discriminate).
    eapply Qcle_trans; [exact A|]. unfold Qcdiv. apply Qcmult_le_compat_r; [|discriminate]. qclra. }
  assert (S2 : normsq w <= K * K * R2 / (1 + 1) + normsq w / (1 + 1)).
  { destruct (Qclt_le_dec (K * K * R2 / (1 + 1) + normsq w / (1 + 1)) (normsq w)) as [L|L]; auto. exfalso.
    apply (Qcmult_lt_compat_r _ _ K HK) in L. revert L. apply Qcle_not_lt. rewrite (Qcmult_comm _ K), (Qcmult_comm (_ + _) K). exact S1. }
  set (x := normsq w) in *. set (v := K * K * R2) in *. clearbody x v.
  replace (v / (1 + 1) + x / (1 + 1)) with ((v + x) / (1 + 1)) in S2 by (field; discriminate).
  destruct (Qclt_le_dec v x) as [L|L]; auto. exfalso. revert S2. apply Qclt_not_le.
  replace x with ((x + x) / (1 + 1)) at 2 by (field; discriminate). unfold Qcdiv. apply Qcmult_lt_compat_r; [reflexivity|]. qclra.
Qed.

Lemma gain_step : exists t, 0 <= t /\ t <= 1 /\ gain K eps R2 <= t * (K * eps) - t * t * ((1 + 1) * (K * K * R2)).
Proof.
  assert (KR : 0 < K * R2) by (apply Qcmult_pos; auto). assert (KE : 0 < K * eps) by (apply Qcmult_pos; auto).
  assert (D : 0 < ofN 4 * (K * R2)) by (apply Qcmult_pos; [reflexivity|auto]).
  assert (NK : K <> 0) by (intro Z; rewrite Z in HK; discriminate HK). assert (NR : R2 <> 0) by (intro Z; rewrite Z in HR; discriminate HR).
  destruct (Qclt_le_dec (ofN 4 * (K * R2)) eps) as [L|L].
  - exists 1. split; [discriminate|]. split; [apply Qcle_refl|]. unfold gain, Qcmin.
    assert (A : K * eps / (1 + 1) <= 1 * (K * eps) - 1 * 1 * ((1 + 1) * (K * K * R2))).
    { apply (Qcmult_lt_compat_r _ _ K HK) in L. change (ofN 4) with (ofN (S (S (S (S O))))) in L. rewrite !ofN_S, ofN_0 in L.
      replace ((1 + (1 + (1 + (1 + 0)))) * (K * R2) * K) with ((1 + 1) * (1 + 1) * (K * K * R2)) in L by ring. rewrite (Qcmult_comm eps) in L.
      set (x := K * eps) in *. set (y := K * K * R2) in *. clearbody x y.
      replace (1 * x - 1 * 1 * ((1 + 1) * y)) with ((x + (x - (1 + 1) * (1 + 1) * y)) / (1 + 1)) by (field; discriminate).
      unfold Qcdiv. apply Qcmult_le_compat_r; [|discriminate]. set (z := (1 + 1) * (1 + 1) * y) in *. clearbody z. qclra. }
    destruct (Qcleb_spec (K * eps / (1 + 1)) (eps * eps / (ofN 8 * R2))) as [M|M]; auto.
    eapply Qcle_trans; [apply Qclt_le_weak; exact M|exact A].
  - exists (eps / (ofN 4 * (K * R2))).
    assert (I := Qcinv_pos _ D). split; [|split].
    + unfold Qcdiv. apply Qcmult_nonneg; apply Qclt_le_weak; auto.
    + unfold Qcdiv. apply (Qcmult_le_compat_r _ _ (/ (ofN 4 * (K * R2)))) in L; [|apply Qclt_le_weak; auto]. rewrite Qcmult_inv_r in L; auto.
      intro Z. rewrite Z in D. discriminate D.
    + assert (A : eps / (ofN 4 * (K * R2)) * (K * eps) - eps / (ofN 4 * (K * R2)) * (eps / (ofN 4 * (K * R2))) * ((1 + 1) * (K * K * R2)) = eps * eps / (ofN 8 * R2)).
      { change (ofN 8) with (ofN (S (S (S (S (S (S (S (S O))))))))). change (ofN 4) with (ofN (S (S (S (S O))))). rewrite !ofN_S, ofN_0.
        field. repeat split; auto; discriminate. }
      rewrite A. unfold gain, Qcmin. destruct (Qcleb_spec (K * eps / (1 + 1)) (eps * eps / (ofN 8 * R2))) as [M|M]; auto. apply Qcle_refl.
Qed.

Lemma progress cs a v c : Forall (fun c : ocon => length (fst c) = d) (cs ++ [c]) -> Forall (fun c => normsq (fst c) <= R2) (cs ++ [c]) ->
  dual1_ok d K None cs a -> (forall c', In c' cs -> violation (comb d a (map fst cs)) c' <= v) ->
  v + eps <= violation (comb d a (map fst cs)) c ->
  exists b, dual1_ok d K None (cs ++ [c]) b /\ dual1_value d cs a + gain K eps R2 <= dual1_value d (cs ++ [c]) b.
Proof.
  intros HF HB Ha HV HC. assert (WS := weights_small cs a). 
  apply Forall_app in HF. destruct HF as [HF Hc]. apply Forall_inv in Hc. apply Forall_app in HB. destruct HB as [HB Hn]. apply Forall_inv in Hn.
  specialize (WS HF HB Ha). destruct gain_step as [t [T0 [T1 HG]]]. assert (HF' := ocons_len d cs HF).
  destruct Ha as [La [A0 [AS _]]]. set (w := comb d a (map fst cs)) in *. assert (Lw : length w = d) by apply comb_length.
  exists (vscale (1 - t) a ++ [t * K]). split.
  - split; [rewrite !app_length, vscale_length; cbn [length]; lia|]. split; [|split; [|discriminate]].
    + intros i Hi. rewrite app_length in Hi. cbn [length] in Hi. unfold get1. destruct (Nat.lt_ge_cases i (length cs)) as [L|L].
      * rewrite app_nth1 by (rewrite vscale_length; lia). change (0 <= get1 (vscale (1 - t) a) i). rewrite get1_vscale. apply Qcmult_nonneg; [qclra|auto].
      * replace i with (length (vscale (1 - t) a)) by (rewrite vscale_length; lia). rewrite nth_middle. apply Qcmult_nonneg; auto. apply Qclt_le_weak; auto.
    + rewrite lsum_app, lsum_vscale, AS. cbn [lsum]. ring.
  - assert (ES : dot (map snd cs) a - normsq w <= K * v).
    { assert (VS := violation_sum d w a (map fst cs) (map snd cs) HF'). rewrite !map_length in VS. specialize (VS La eq_refl Lw). fold w in VS.
      unfold normsq. rewrite <- VS. rewrite <- AS, lsum_get, La, (Qcmult_comm _ v), <- sumn_mult_l. apply sumn_le. intros i Hi.
      rewrite (Qcmult_comm (get1 a i)). apply Qcmult_le_compat_r; [|auto]. rewrite violation_nth by auto. apply HV, nth_In; auto. }
    unfold dual1_value. rewrite !map_app. cbn [map]. rewrite comb_app by (rewrite ?vscale_length, ?map_length; auto).
    rewrite comb_vscale by (rewrite map_length; auto). fold w. rewrite dot_app by (rewrite vscale_length, map_length; auto).
    rewrite dot_vscale_r, dot_cons, dot_nil_l. 
    assert (NE : normsq (vadd (vscale (1 - t) w) (vscale (t * K) (fst c))) =
      (1 - t) * (1 - t) * normsq w + (1 + 1) * t * (1 - t) * K * dot w (fst c) + t * t * (K * K * normsq (fst c))).
    { unfold normsq. rewrite dot_vadd_l by (rewrite !vscale_length; congruence). rewrite !dot_vadd_r by (rewrite !vscale_length; congruence).
      rewrite !dot_vscale_l, !dot_vscale_r. rewrite (dot_comm (fst c) w). ring. }
    rewrite NE.
    assert (DV := normsq_nonneg (vadd w (vscale K (fst c)))).
    assert (NE2 : normsq (vadd w (vscale K (fst c))) = normsq w + (1 + 1) * K * dot w (fst c) + K * K * normsq (fst c)).
    { unfold normsq. rewrite dot_vadd_l by (rewrite !vscale_length; congruence). rewrite !dot_vadd_r by (rewrite !vscale_length; congruence).
      rewrite !dot_vscale_l, !dot_vscale_r. rewrite (dot_comm (fst c) w). ring. }
    rewrite NE2 in DV.
    assert (KN : K * K * normsq (fst c) <= K * K * R2).
    { rewrite (Qcmult_comm (K * K)), (Qcmult_comm (K * K)). apply Qcmult_le_compat_r; auto. apply Qc_sq_nonneg. }
    unfold violation in HC. set (wc := dot w (fst c)) in *. set (W := normsq w) in *. set (P := K * K * normsq (fst c)) in *. set (B := K * K * R2) in *.
    set (al := dot (map snd cs) a) in *. set (l := snd c) in *. clearbody wc W P B al l.
    assert (Q1 : K * (v + eps) <= K * (l - wc)). { rewrite !(Qcmult_comm K). apply Qcmult_le_compat_r; auto. apply Qclt_le_weak; auto. }
    assert (Q2 : 0 <= t * (K * (l - wc) - (al - W) - K * eps)).
    { apply Qcmult_nonneg; auto. replace (K * (v + eps)) with (K * v + K * eps) in Q1 by ring.
      set (x := K * v) in *. set (y := K * eps) in *. set (z := K * (l - wc)) in *. clearbody x y z. qclra. }
    assert (Q3 : 0 <= t * t * ((1 + 1) * B - (W - (1 + 1) * K * wc + P) / (1 + 1))).
    { apply Qcmult_nonneg; [apply Qc_sq_nonneg|].
      replace ((1 + 1) * B - (W - (1 + 1) * K * wc + P) / (1 + 1)) with (((B - W) + (B - P) + (B + B + (K * wc + K * wc))) / (1 + 1)) by (field; discriminate).
      replace ((1 + 1) * K * wc) with (K * wc + K * wc) in DV by ring. set (y := K * wc) in *. clearbody y.
      unfold Qcdiv. apply Qcmult_nonneg; [|discriminate]. qclra. }
    match goal with |- _ <= ?r => replace r with
      (al - W / (1 + 1) + (t * (K * eps) - t * t * ((1 + 1) * B)) + t * (K * (l - wc) - (al - W) - K * eps) + t * t * ((1 + 1) * B - (W - (1 + 1) * K * wc + P) / (1 + 1))) by (field; discriminate) end.
    set (x1 := t * (K * eps) - t * t * ((1 + 1) * B)) in *. set (x2 := t * (K * (l - wc) - (al - W) - K * eps)) in *.
    set (x3 := t * t * ((1 + 1) * B - (W - (1 + 1) * K * wc + P) / (1 + 1))) in *. set (x4 := al - W / (1 + 1)). set (g := gain K eps R2) in *. clearbody x1 x2 x3 x4 g. qclra.
Qed.
End progress.

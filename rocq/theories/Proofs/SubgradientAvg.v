(** The averaged weights of SubgradientSSVM follow the iterates. *)
From Coq Require Import ZArith Permutation.
From Verif Require Import Model.Subgradient Proofs.Arrays Proofs.LearnerProofs Proofs.SubgradientProofs Proofs.SubgradientProofs2
  Spec.SubgradientRateSpec Proofs.SubgradientRate Proofs.SubgradientRate2 Proofs.SubgradientRate3 Proofs.SubgradientRate4 Proofs.FWRate5.

(** ** mixtures *)
Definition mixed (r : Qc) (a b : list Qc) : list Qc := vadd (vscale (1 - r) a) (vscale r b).
Lemma mixed_length r a b : length a = length b -> length (mixed r a b) = length a.
Proof. intro H. unfold mixed. rewrite vadd_length; rewrite !vscale_length; auto. Qed.
Lemma dot_mixed r a b x : length a = length b -> dot (mixed r a b) x = (1 - r) * dot a x + r * dot b x.
Proof. intro H. unfold mixed. rewrite dot_vadd_l by (rewrite !vscale_length; exact H). rewrite !dot_vscale_l. reflexivity. Qed.
Lemma normsq_vsub a b : length a = length b -> normsq (vsub a b) = dot a a - (1 + 1) * dot a b + dot b b.
Proof. intro H. unfold normsq. rewrite dot_vsub_l, !dot_vsub_r by exact H. rewrite (dot_comm b a). ring. Qed.
Lemma mixed_sq r a b u : 0 <= r -> r <= 1 -> length a = length b -> length a = length u ->
  normsq (vsub (mixed r a b) u) <= (1 - r) * normsq (vsub a u) + r * normsq (vsub b u).
Proof.
  intros H0 H1 L1 L2. assert (P : 0 <= r * (1 - r) * normsq (vsub a b)).
  { apply Qcmult_nonneg; [apply Qcmult_nonneg; [exact H0|clear - H1; qclra]|apply normsq_nonneg]. }
  rewrite !normsq_vsub in * by (rewrite ?mixed_length; congruence). rewrite !dot_mixed by exact L1. rewrite !(dot_comm _ (mixed r a b)), !dot_mixed by exact L1. rewrite (dot_comm b a) in *.
  set (aa := dot a a) in *. set (bb := dot b b) in *. set (ab := dot a b) in *. set (au := dot a u). set (bu := dot b u). set (uu := dot u u). clearbody aa bb ab au bu uu.
  match goal with |- ?x <= ?y => replace y with (x + r * (1 - r) * (aa - (1 + 1) * ab + bb)) by ring; set (z := x) end. clearbody z.
  set (y := r * (1 - r) * (aa - (1 + 1) * ab + bb)) in *. clearbody y. clear - P. qclra.
Qed.
Lemma mixed_norm r a b B : 0 <= r -> r <= 1 -> length a = length b -> normsq a <= B -> normsq b <= B -> normsq (mixed r a b) <= B.
Proof.
  intros H0 H1 L1 HA HB. assert (P : 0 <= r * (1 - r) * normsq (vsub a b)).
  { apply Qcmult_nonneg; [apply Qcmult_nonneg; [exact H0|clear - H1; qclra]|apply normsq_nonneg]. }
  rewrite normsq_vsub in P by exact L1. unfold normsq in *. rewrite dot_mixed by exact L1. rewrite !(dot_comm _ (mixed r a b)), !dot_mixed by exact L1. rewrite (dot_comm b a).
  set (aa := dot a a) in *. set (bb := dot b b) in *. set (ab := dot a b) in *. clearbody aa bb ab.
  assert (Q1 : (1 - r) * aa <= (1 - r) * B) by (rewrite !(Qcmult_comm (1 - r)); apply Qcmult_le_compat_r; [exact HA|clear - H1; qclra]).
  assert (Q2 : r * bb <= r * B) by (rewrite !(Qcmult_comm r); apply Qcmult_le_compat_r; [exact HB|exact H0]).
  match goal with |- ?x <= ?y => replace x with ((1 - r) * aa + r * bb - r * (1 - r) * (aa - (1 + 1) * ab + bb)) by ring end.
  replace B with ((1 - r) * B + r * B) by ring.
  set (y := r * (1 - r) * (aa - (1 + 1) * ab + bb)) in *. set (x1 := (1 - r) * aa) in *. set (x2 := r * bb) in *. set (x3 := (1 - r) * B) in *. set (x4 := r * B) in *. clearbody y x1 x2 x3 x4. clear - P Q1 Q2. qclra.
Qed.

(** ** the averages *)
Lemma expose_mixed a t s w : a <> AvgNone -> sg_expose a t s w = mixed (sg_rho a t) s w.
Proof. intro H. destruct a; [congruence|reflexivity|reflexivity]. Qed.
Lemma weight_ge a j : (0 < j)%nat -> 1 <= avg_weight a j.
Proof.
  intro H. assert (P : 1 <= ofN j). { destruct j; [lia|]. rewrite ofN_S. assert (Q := ofN_nonneg j). set (x := ofN j) in *. clearbody x. clear - Q. qclra. }
  destruct a; cbn [avg_weight]; [apply Qcle_refl|exact P|]. apply Qcle_trans with (1 * ofN j); [rewrite Qcmult_1_l; exact P|]. apply Qcmult_le_compat_r; [exact P|apply ofN_nonneg].
Qed.
Lemma total_S a t : total (avg_weight a) (Datatypes.S t) = total (avg_weight a) t + avg_weight a (Datatypes.S t).
Proof. unfold total. rewrite seq_S, map_app, lsum_app. cbn [map lsum Nat.add]. ring. Qed.
Lemma total_ge a t : ofN t <= total (avg_weight a) t.
Proof.
  induction t as [|t IH]; [apply Qcle_refl|]. rewrite total_S, ofN_S. assert (W := weight_ge a (Datatypes.S t) ltac:(lia)).
  set (x := total _ t) in *. set (y := avg_weight a _) in *. set (z := ofN t) in *. clearbody x y z. clear - IH W. qclra.
Qed.
Lemma total_nonneg a t : 0 <= total (avg_weight a) t.
Proof. eapply Qcle_trans; [apply ofN_nonneg|apply total_ge]. Qed.
Lemma total_S_pos a t : 0 < total (avg_weight a) (Datatypes.S t).
Proof. eapply Qclt_le_trans; [|apply total_ge]. apply ofN_pos. lia. Qed.
Lemma rho_range a t : a <> AvgNone -> 0 <= sg_rho a t /\ sg_rho a t <= 1.
Proof.
  intro HA. assert (E := rho_total a t HA). assert (P := total_S_pos a t). assert (W := weight_ge a (Datatypes.S t) ltac:(lia)). assert (N := total_nonneg a t). assert (ES := total_S a t).
  set (r := sg_rho a t) in *. set (x := total (avg_weight a) (Datatypes.S t)) in *. set (y := avg_weight a (Datatypes.S t)) in *. set (z := total _ t) in *. clearbody r x y z.
  assert (NZ : x <> 0) by (intro Q; rewrite Q in P; discriminate P). assert (PI := Qcinv_pos x P). assert (ER : r = y * / x) by (rewrite <- E; field; exact NZ). split.
  - rewrite ER. apply Qcmult_nonneg; [clear - W; qclra|apply Qclt_le_weak; exact PI].
  - rewrite ER. rewrite <- (Qcmult_inv_r x NZ). apply Qcmult_le_compat_r; [clear - ES N; qclra|apply Qclt_le_weak; exact PI].
Qed.
Lemma track a t s w u : a <> AvgNone -> length s = length w -> length s = length u ->
  total (avg_weight a) (Datatypes.S t) * normsq (vsub (sg_expose a t s w) u) <=
  total (avg_weight a) t * normsq (vsub s u) + avg_weight a (Datatypes.S t) * normsq (vsub w u).
Proof.
  intros HA L1 L2. rewrite (expose_mixed a t s w HA). destruct (rho_range a t HA) as [R0 R1]. assert (M := mixed_sq (sg_rho a t) s w u R0 R1 L1 L2).
  assert (E := rho_total a t HA). assert (P := total_nonneg a (Datatypes.S t)). assert (ES := total_S a t).
  apply (Qcmult_le_compat_r _ _ _) with (1 := M) in P. clear M.
  set (r := sg_rho a t) in *. set (x := total (avg_weight a) (Datatypes.S t)) in *. set (y := avg_weight a (Datatypes.S t)) in *. set (z := total _ t) in *.
  set (n1 := normsq (vsub s u)) in *. set (n2 := normsq (vsub w u)) in *. set (n3 := normsq (vsub (mixed r s w) u)) in *. clearbody r x y z n1 n2 n3.
  rewrite (Qcmult_comm x). eapply Qcle_trans; [exact P|]. replace (((1 - r) * n1 + r * n2) * x) with ((x - r * x) * n1 + r * x * n2) by ring. rewrite E, ES.
  match goal with |- ?p <= ?q => replace p with q; [apply Qcle_refl|] end. ring.
Qed.

Lemma diff_via a b c : length a = length b -> length b = length c -> normsq (vsub a c) <= normsq (vsub a b) + normsq (vsub a b) + (normsq (vsub c b) + normsq (vsub c b)).
Proof.
  intros L1 L2. assert (E : vsub a c = vsub (vsub a b) (vsub c b)).
  { apply vec_ext. { rewrite !vsub_length; rewrite ?vsub_length; congruence. } intros j _. rewrite !get1_vsub by (rewrite ?vsub_length; congruence). ring. }
  rewrite E. apply diff_sq. rewrite !vsub_length; congruence.
Qed.

(** ** within an epoch *)
Section walks.
Context {X Y : Type} (T : task X Y) (d : nat) (prm : sg_params) (n : nat) (R : Qc).
Hypothesis HT : 1 <= sg_t0 prm.
Hypothesis HR : 0 <= R.
Hypothesis HA : sg_avg prm <> AvgNone.
Notation K := (sg_C prm * ofN n).
Notation BB := (K * K * R).
Notation GG := ((1 + 1 + 1 + 1) * (K * K * R)).
Notation total_at t := (total (avg_weight (sg_avg prm)) t).

Lemma walk_ball k Bs : forall st st', keeps d prm n R st -> normsq (sg_self st) <= BB -> walk T d prm n R k Bs st st' -> normsq (sg_self st') <= BB.
Proof.
  induction Bs as [|B Bs IH]; intros st st' HK HB HW; cbn [walk] in HW; [subst; exact HB|]. destruct HW as [st1 [[g [_ [_ [_ [_ E]]]]] [HK1 HW]]].
  apply (IH st1 st' HK1); [|exact HW]. rewrite E, (expose_mixed _ _ _ _ HA). destruct (rho_range (sg_avg prm) (sg_t st) HA) as [R0 R1].
  apply mixed_norm; [exact R0|exact R1| |exact HB|apply HK1]. destruct HK as [[_ [L _]] _], HK1 as [[L1 _] _]. congruence.
Qed.
Lemma GG_pos : 0 <= GG.
Proof. apply Qcmult_nonneg; [discriminate|]. apply Qcmult_nonneg; [apply Qc_sq_nonneg|exact HR]. Qed.
Lemma step_far w w0 g s0 s i : 1 <= s0 -> s0 <= s -> length w = d -> length w0 = d -> length g = d -> normsq g <= GG -> normsq (vsub w w0) <= (ofN i / s0) * (ofN i / s0) * GG ->
  normsq (vsub (vsub w (vscale (/ s) g)) w0) <= (ofN (Datatypes.S i) / s0) * (ofN (Datatypes.S i) / s0) * GG.
Proof.
  intros Hs Hss LW LW0 LG NG HD. assert (PG := GG_pos). set (G := GG) in *. clearbody G. assert (P0 := ge1_pos s0 Hs). assert (Ps : 0 < s) by (eapply Qclt_le_trans; eauto).
  assert (IV : / s <= / s0) by (apply inv_le; assumption). assert (PV : 0 <= / s) by (apply Qclt_le_weak, Qcinv_pos; exact Ps). assert (PV0 : 0 <= / s0) by (apply Qclt_le_weak, Qcinv_pos; exact P0).
  assert (PQ : 0 <= ofN i / s0) by (apply Qcmult_nonneg; [apply ofN_nonneg|exact PV0]).
  assert (NS : normsq (vscale (- / s) g) <= / s0 * / s0 * G).
  { rewrite normsq_scale. replace (- / s * - / s) with (/ s * / s) by ring. apply Qcle_trans with (/ s * / s * G).
    - rewrite !(Qcmult_comm (/ s * / s)). apply Qcmult_le_compat_r; [exact NG|apply Qc_sq_nonneg].
    - apply Qcmult_le_compat_r; [apply sq_mono; auto|exact PG]. }
  assert (EW : vsub (vsub w (vscale (/ s) g)) w0 = vadd (vsub w w0) (vscale (- / s) g)).
  { assert (LX : length (vsub w (vscale (/ s) g)) = d) by (rewrite vsub_length; rewrite ?vscale_length; congruence). assert (LV : length (vsub w w0) = d) by (rewrite vsub_length; congruence).
    apply vec_ext. { rewrite vsub_length, vadd_length; rewrite ?vscale_length; congruence. }
    intros j _. rewrite get1_vadd by (rewrite vscale_length; congruence). rewrite !get1_vsub by (rewrite ?vscale_length; congruence). rewrite !get1_vscale. ring. }
  rewrite EW. assert (LV : length (vsub w w0) = d) by (rewrite vsub_length; congruence).
  assert (DT := dot_scaled (vsub w w0) (vscale (- / s) g) (ofN i / s0) (/ s0) G ltac:(rewrite vscale_length; congruence) PQ PV0 PG HD NS).
  unfold normsq. rewrite dot_vadd_l, !dot_vadd_r by (rewrite vscale_length; congruence). rewrite (dot_comm (vscale _ g) (vsub w w0)). unfold normsq in HD, NS.
  rewrite ofN_S. replace ((1 + ofN i) / s0 * ((1 + ofN i) / s0) * G) with (ofN i / s0 * (ofN i / s0) * G + (ofN i / s0 * / s0 * G + ofN i / s0 * / s0 * G) + / s0 * / s0 * G) by (unfold Qcdiv; ring).
  set (a := dot (vsub w w0) (vsub w w0)) in *. set (b := dot (vsub w w0) _) in *. set (c := dot (vscale _ g) _) in *. clearbody a b c.
  set (x := ofN i / s0 * (ofN i / s0) * G) in *. set (y := ofN i / s0 * / s0 * G) in *. set (z := / s0 * / s0 * G) in *. clearbody x y z. clear - DT HD NS. qclra.
Qed.
Lemma walk_track k u w0 s0 delta : 1 <= s0 -> length u = d -> length w0 = d -> forall Bs i st st', keeps d prm n R st -> s0 <= ofN (sg_t st) + sg_t0 prm ->
  normsq (vsub (sg_w st) w0) <= (ofN i / s0) * (ofN i / s0) * GG ->
  (ofN (i + length Bs) / s0) * (ofN (i + length Bs) / s0) * GG + (ofN (i + length Bs) / s0) * (ofN (i + length Bs) / s0) * GG + (normsq (vsub u w0) + normsq (vsub u w0)) <= delta ->
  walk T d prm n R k Bs st st' ->
  total_at (sg_t st') * normsq (vsub (sg_self st') u) + total_at (sg_t st) * delta <= total_at (sg_t st) * normsq (vsub (sg_self st) u) + total_at (sg_t st') * delta.
Proof.
  intros Hs Lu L0. induction Bs as [|B Bs IH]; intros i st st' HK Hst HD HDe HW; cbn [walk] in HW; [subst; apply Qcle_refl|].
  destruct HW as [st1 [[g [SG [NG [E1 [E2 E3]]]]] [HK1 HW]]].
  assert (Lg : length g = d) by apply SG. assert (Lw : length (sg_w st) = d) by apply HK. assert (Lw1 : length (sg_w st1) = d) by apply HK1. assert (Ls : length (sg_self st) = d) by apply HK.
  assert (HD1 := step_far (sg_w st) w0 g s0 (ofN (sg_t st) + sg_t0 prm) i Hs Hst Lw L0 Lg NG HD). rewrite <- E1 in HD1.
  assert (Hst1 : s0 <= ofN (sg_t st1) + sg_t0 prm). { rewrite E2, ofN_S. set (x := ofN (sg_t st)) in *. set (y := sg_t0 prm) in *. clearbody x y. clear - Hst. qclra. }
  replace (i + length (B :: Bs))%nat with (Datatypes.S i + length Bs)%nat in HDe by (cbn [length]; lia).
  specialize (IH (Datatypes.S i) st1 st' HK1 Hst1 HD1 HDe HW).
  assert (TR := track (sg_avg prm) (sg_t st) (sg_self st) (sg_w st1) u HA ltac:(congruence) ltac:(congruence)). rewrite <- E3, <- E2 in TR.
  assert (CL : normsq (vsub (sg_w st1) u) <= delta).
  { assert (V := diff_via (sg_w st1) w0 u ltac:(congruence) ltac:(congruence)). eapply Qcle_trans; [exact V|]. eapply Qcle_trans; [|exact HDe].
    assert (MO : (ofN (Datatypes.S i) / s0) * (ofN (Datatypes.S i) / s0) * GG <= (ofN (Datatypes.S i + length Bs) / s0) * (ofN (Datatypes.S i + length Bs) / s0) * GG).
    { apply Qcmult_le_compat_r; [|apply GG_pos]. assert (PV0 : 0 <= / s0) by (apply Qclt_le_weak, Qcinv_pos, ge1_pos; exact Hs). apply sq_mono; [apply Qcmult_nonneg; [apply ofN_nonneg|exact PV0]|].
      apply Qcmult_le_compat_r; [|exact PV0]. rewrite ofN_plus. assert (Q := ofN_nonneg (length Bs)). set (x := ofN (length Bs)) in *. set (y := ofN (Datatypes.S i)). clearbody x y. clear - Q. qclra. }
    set (x1 := normsq (vsub (sg_w st1) w0)) in *. set (x2 := normsq (vsub u w0)) in *. set (x3 := ofN (Datatypes.S i) / s0 * (ofN (Datatypes.S i) / s0) * GG) in *. set (x4 := _ * GG) in *. clearbody x1 x2 x3 x4. clear - MO HD1. qclra. }
  assert (WP : avg_weight (sg_avg prm) (sg_t st1) * normsq (vsub (sg_w st1) u) <= avg_weight (sg_avg prm) (sg_t st1) * delta).
  { rewrite !(Qcmult_comm (avg_weight _ _)). apply Qcmult_le_compat_r; [exact CL|]. apply Qcle_trans with 1; [discriminate|apply weight_ge; rewrite E2; lia]. }
  assert (ES : total_at (sg_t st1) * delta = total_at (sg_t st) * delta + avg_weight (sg_avg prm) (sg_t st1) * delta) by (rewrite E2, total_S; ring).
  set (a1 := total_at (sg_t st1) * delta) in *. set (a2 := total_at (sg_t st) * delta) in *. set (a3 := avg_weight (sg_avg prm) (sg_t st1) * delta) in *. set (a4 := avg_weight (sg_avg prm) (sg_t st1) * normsq (vsub (sg_w st1) u)) in *.
  set (b1 := total_at (sg_t st1) * normsq (vsub (sg_self st1) u)) in *. set (b2 := total_at (sg_t st) * normsq (vsub (sg_self st) u)) in *. set (b3 := total_at (sg_t st') * normsq (vsub (sg_self st') u)) in *. set (b4 := total_at (sg_t st') * delta) in *.
  clearbody a1 a2 a3 a4 b1 b2 b3 b4. clear - IH TR WP ES. qclra.
Qed.
End walks.

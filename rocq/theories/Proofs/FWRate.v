(** Norms, line search and hinge losses for the rate of Frank-Wolfe. *)
From Verif Require Import Proofs.Arrays Proofs.LossProofs Proofs.CRFProofs Proofs.LearnerProofs
  Proofs.UnstructuredProofs2 Proofs.OneSlackProofs Proofs.OneSlackProofs2 Model.FrankWolfe Spec.FWRateSpec Proofs.FrankWolfeProofs Proofs.FrankWolfeProofs2.
Notation mix := FrankWolfe.mix.

Lemma sq_le x y : 0 <= x -> 0 <= y -> x * x <= y * y -> x <= y.
Proof.
  intros Hx Hy H. destruct (Qclt_le_dec y x) as [Q|Q]; [|exact Q]. exfalso. assert (P : 0 < (x - y) * (x + y)).
  { apply Qcmult_pos; qclra. } replace ((x - y) * (x + y)) with (x * x - y * y) in P by ring. set (a := x * x) in *. set (b := y * y) in *. clearbody a b. qclra.
Qed.
Lemma mult_le a b c e : 0 <= a -> 0 <= c -> a <= b -> c <= e -> a * c <= b * e.
Proof.
  intros Ha Hc H1 H2. apply Qcle_trans with (b * c); [apply Qcmult_le_compat_r; auto|]. rewrite !(Qcmult_comm b). apply Qcmult_le_compat_r; auto. apply Qcle_trans with a; auto.
Qed.
Lemma mult_le_l a b c : 0 <= a -> b <= c -> a * b <= a * c.
Proof. intros. rewrite !(Qcmult_comm a). apply Qcmult_le_compat_r; auto. Qed.
Lemma dot_le a b r s : length a = length b -> 0 <= r -> 0 <= s -> normsq a <= r * r -> normsq b <= s * s -> dot a b <= r * s.
Proof.
  intros HL Hr Hs Ha Hb. destruct (Qclt_le_dec (dot a b) 0) as [Q|Q].
  - apply Qcle_trans with 0; [apply Qclt_le_weak; auto|apply Qcmult_nonneg; auto].
  - apply sq_le; [auto|apply Qcmult_nonneg; auto|]. eapply Qcle_trans; [apply cauchy_schwarz; auto|].
    replace (r * s * (r * s)) with (r * r * (s * s)) by ring. apply mult_le; auto using normsq_nonneg.
Qed.
Lemma norm_add_le a b r s : length a = length b -> 0 <= r -> 0 <= s -> normsq a <= r * r -> normsq b <= s * s -> normsq (vadd a b) <= (r + s) * (r + s).
Proof.
  intros HL Hr Hs Ha Hb. unfold normsq. rewrite dot_vadd_l, !dot_vadd_r by auto. rewrite (dot_comm b a). fold (normsq a) (normsq b).
  assert (Q := dot_le a b r s HL Hr Hs Ha Hb). replace ((r + s) * (r + s)) with (r * r + r * s + (r * s + s * s)) by ring.
  set (u := dot a b) in *. set (v := r * s) in *. set (x := r * r) in *. set (y := s * s) in *. set (p := normsq a) in *. set (q := normsq b) in *. clearbody u v x y p q. qclra.
Qed.
Lemma vsub_as_add a b : length a = length b -> vsub a b = vadd a (vscale (- (1)) b).
Proof.
  intro H. apply vec_ext. { rewrite vsub_length, vadd_length by (rewrite ?vscale_length; auto). reflexivity. }
  intros i _. rewrite get1_vsub, get1_vadd by (rewrite ?vscale_length; auto). rewrite get1_vscale. ring.
Qed.
Lemma norm_opp a : normsq (vscale (- (1)) a) = normsq a.
Proof. unfold normsq. rewrite dot_vscale_l, dot_vscale_r. ring. Qed.
Lemma norm_sub_le a b r s : length a = length b -> 0 <= r -> 0 <= s -> normsq a <= r * r -> normsq b <= s * s -> normsq (vsub a b) <= (r + s) * (r + s).
Proof. intros. rewrite vsub_as_add by auto. apply norm_add_le; auto. rewrite vscale_length. auto. rewrite norm_opp. auto. Qed.
Lemma norm_sub_comm a b : length a = length b -> normsq (vsub a b) = normsq (vsub b a).
Proof. intro H. unfold normsq. rewrite !dot_vsub_l, !dot_vsub_r by auto. rewrite (dot_comm b a). ring. Qed.
Lemma norm_vsum d (fs : list (list Qc)) (rs : list Qc) : Forall2 (fun f r => length f = d /\ 0 <= r /\ normsq f <= r * r) fs rs -> 0 <= lsum rs /\ normsq (vsum d fs) <= lsum rs * lsum rs.
Proof.
  intro H. assert (A : Forall (fun f => length f = d) fs) by (induction H; constructor; tauto). induction H as [|f r fs rs [H1 [H2 H3]] HF IH]; cbn [lsum].
  - split; [apply Qcle_refl|]. unfold vsum. cbn [fold_right]. unfold normsq. rewrite dot_vzero_l. vm_compute. discriminate.
  - apply Forall_cons_iff in A. destruct A as [_ A]. destruct (IH A) as [I1 I2]. split; [qclra|]. change (vsum d (f :: fs)) with (vadd f (vsum d fs)).
    apply norm_add_le; auto. rewrite vsum_length'; auto.
Qed.
Lemma normsq_vmix g a b : length a = length b -> 0 <= g -> g <= 1 -> normsq (vmix g a b) <= mix g (normsq a) (normsq b).
Proof.
  intros HL G0 G1. unfold vmix, mix, normsq. rewrite dot_vadd_l, !dot_vadd_r by (rewrite !vscale_length; auto). rewrite !dot_vscale_l, !dot_vscale_r, (dot_comm b a).
  assert (Q := normsq_nonneg (vsub a b)). unfold normsq in Q. rewrite dot_vsub_l, !dot_vsub_r, (dot_comm b a) in Q by auto.
  set (x := dot a a) in *. set (y := dot a b) in *. set (z := dot b b) in *. clearbody x y z.
  assert (P : 0 <= g * (1 - g) * (x - y - (y - z))). { apply Qcmult_nonneg; auto. apply Qcmult_nonneg; auto. qclra. }
  apply Qcle_minus_iff. match goal with |- 0 <= ?e => replace e with (g * (1 - g) * (x - y - (y - z))) by ring end. exact P.
Qed.

(** ** line search *)
Lemma line_gain A B e K : 0 <= A -> 0 <= B -> B + fw_eps <= K -> 0 <= e -> e <= A -> e <= K -> let g := clip01 (A / (B + fw_eps)) in
  e * e / ((1 + 1) * K) <= g * A - g * g * B / (1 + 1) /\ g * g * B <= A.
Proof.
  intros HA HB HK He HeA HeK g. assert (P := fw_eps_pos). set (ep := fw_eps) in *. clearbody ep.
  set (k := B + ep) in *. assert (Kp : 0 < k) by (unfold k; qclra). assert (KZ : k <> 0) by (intro Z; rewrite Z in Kp; discriminate).
  assert (KK : 0 < K) by (eapply Qclt_le_trans; eauto). assert (KKZ : K <> 0) by (intro Z; rewrite Z in KK; discriminate).
  assert (BK : B <= k) by (unfold k; qclra).
  set (a := A / k) in *. assert (EA : A = a * k) by (unfold a; field; auto). assert (Ha : 0 <= a). { unfold a, Qcdiv. apply Qcmult_nonneg; auto. apply Qclt_le_weak, Qcinv_pos; auto. }
  assert (HALF : forall u, e * e <= u * K -> e * e / ((1 + 1) * K) <= u / (1 + 1)).
  { intros u Hu. apply Qcdiv_le_l. { apply Qcmult_pos; [reflexivity|auto]. } replace (u / (1 + 1) * ((1 + 1) * K)) with (u * K) by (field; discriminate). exact Hu. }
  destruct (clip01_cases a) as [[E Q]|[[E Q]|E]]; fold g in E.
  - assert (a = 0) by (apply Qcle_antisym; auto). rewrite E. subst a. rewrite H in EA. assert (EA0 : A = 0) by (rewrite EA; ring). assert (e = 0) by (apply Qcle_antisym; auto; rewrite <- EA0; auto).
    rewrite H0, EA0. split; [|replace (0 * 0 * B) with 0 by ring; apply Qcle_refl]. replace (0 * 0 / ((1 + 1) * K)) with 0 by (unfold Qcdiv; ring).
    replace (0 * 0 - 0 * 0 * B / (1 + 1)) with 0 by (unfold Qcdiv; ring). apply Qcle_refl.
  - rewrite E. assert (AK : k <= A). { rewrite EA. replace k with (1 * k) at 1 by ring. apply Qcmult_le_compat_r; auto. apply Qclt_le_weak; auto. }
    split; [|replace (1 * 1 * B) with B by ring; eapply Qcle_trans; eauto].
    apply Qcle_trans with (A / (1 + 1)).
    + apply HALF. apply mult_le; auto.
    + replace (1 * A - 1 * 1 * B / (1 + 1)) with (A / (1 + 1) + (A - B) / (1 + 1)) by (field; discriminate).
      assert (Z : 0 <= (A - B) / (1 + 1)). { apply Qchalf_nonneg. assert (B <= A) by (eapply Qcle_trans; eauto). qclra. }
      set (u := A / (1 + 1)) in *. set (v := (A - B) / (1 + 1)) in *. clearbody u v. qclra.
  - rewrite E. assert (G1 : a <= 1) by (rewrite <- E; apply clip01_range).
    assert (AA : a * a * B <= a * A). { rewrite EA. replace (a * (a * k)) with (a * a * k) by ring. apply mult_le_l; auto. apply Qc_sq_nonneg. }
    split.
    + apply Qcle_trans with (a * A / (1 + 1)).
      * apply HALF. replace (a * A * K) with (A * A * (K / k)) by (rewrite EA; field; auto). apply Qcle_trans with (A * A * 1).
        -- replace (A * A * 1) with (A * A) by ring. apply mult_le; auto.
        -- apply mult_le_l; [apply Qc_sq_nonneg|]. replace 1 with (k * / k) by (field; auto). unfold Qcdiv. apply Qcmult_le_compat_r; auto. apply Qclt_le_weak, Qcinv_pos; auto.
      * replace (a * A - a * a * B / (1 + 1)) with (a * A / (1 + 1) + (a * A - a * a * B) / (1 + 1)) by (field; discriminate).
        assert (Z : 0 <= (a * A - a * a * B) / (1 + 1)). { apply Qchalf_nonneg. set (u := a * A) in *. set (v := a * a * B) in *. clearbody u v. qclra. }
        set (u := a * A / (1 + 1)) in *. set (v := (a * A - a * a * B) / (1 + 1)) in *. clearbody u v. qclra.
    + eapply Qcle_trans; [exact AA|]. replace A with (1 * A) at 2 by ring. apply Qcmult_le_compat_r; auto.
Qed.
(** the line search is at least as good as any other step with the larger curvature *)
Lemma line_beats A B K h : 0 <= B -> B + fw_eps <= K -> 0 <= h -> h <= 1 -> let g := clip01 (A / (B + fw_eps)) in
  h * A - h * h * K / (1 + 1) <= g * A - g * g * B / (1 + 1).
Proof.
  intros HB HK H0 H1 g. assert (P := fw_eps_pos). set (e := fw_eps) in *. clearbody e.
  assert (Kp : 0 < B + e) by qclra. assert (KZ : B + e <> 0) by (intro Z; rewrite Z in Kp; discriminate).
  set (a := A / (B + e)) in *. assert (EA : A = a * (B + e)) by (unfold a; field; auto). clearbody a. subst A.
  assert (V : 0 <= (g - h) * (a - g)).
  { destruct (clip01_cases a) as [[E Q]|[[E Q]|E]]; fold g in E.
    - rewrite E. replace ((0 - h) * (a - 0)) with (h * (0 - a)) by ring. apply Qcmult_nonneg; auto. qclra.
    - rewrite E. apply Qcmult_nonneg; qclra.
    - rewrite E. replace ((a - h) * (a - a)) with 0 by ring. apply Qcle_refl. }
  assert (O : 0 <= (g * (a * (B + e)) - g * g * (B + e) / (1 + 1)) - (h * (a * (B + e)) - h * h * (B + e) / (1 + 1))).
  { replace (_ - _) with ((B + e) * ((g - h) * (a - g)) + (B + e) * ((g - h) * (g - h) / (1 + 1))) by (field; discriminate).
    assert (Q2 : 0 <= (g - h) * (g - h) / (1 + 1)) by (apply Qchalf_nonneg, Qc_sq_nonneg).
    apply Qcle_trans with (0 + 0); [discriminate|]. apply Qcplus_le_compat; apply Qcmult_nonneg; auto; apply Qclt_le_weak; auto. }
  assert (Q : 0 <= g * g * e / (1 + 1)). { apply Qchalf_nonneg. apply Qcmult_nonneg; [apply Qc_sq_nonneg|apply Qclt_le_weak; auto]. }
  assert (R : 0 <= h * h * (K - (B + e)) / (1 + 1)). { apply Qchalf_nonneg. apply Qcmult_nonneg; [apply Qc_sq_nonneg|]. qclra. }
  apply Qcle_minus_iff. match goal with |- 0 <= ?x => replace x with
     ((g * (a * (B + e)) - g * g * (B + e) / (1 + 1)) - (h * (a * (B + e)) - h * h * (B + e) / (1 + 1)) + (g * g * e / (1 + 1) + h * h * (K - (B + e)) / (1 + 1))) by (field; discriminate) end.
  match goal with |- 0 <= ?x + (?y + ?z) => set (p1 := x) in *; set (p2 := y) in *; set (p3 := z) in * end. clearbody p1 p2 p3. qclra.
Qed.

(** ** hinge losses *)
Section hinge.
  Context {X Y : Type} (T : task X Y) (d : nat) (R L : Qc).
  Lemma hinge_lipschitz p w w' h h' r : sized T d p -> 0 <= R -> (forall y', t_label T (fst p) y' -> normsq (vsub (t_feat T (fst p) (snd p)) (t_feat T (fst p) y')) <= R * R) ->
    length w = d -> length w' = d -> 0 <= r -> normsq (vsub w' w) <= r * r ->
    is_hinge T w (fst p) (snd p) h -> is_hinge T w' (fst p) (snd p) h' -> h' <= h + r * R.
  Proof.
    intros Hp HR HF Hw Hw' Hr Hd [_ HB] [[y' [Ly E]] _]. specialize (HB y' Ly). rewrite <- E. assert (LF := pair_length T d p y' Hp Ly). destruct Hp as [L0 [_ F]].
    rewrite margin_sub in * by (rewrite !F; auto). set (de := vsub (t_feat T (fst p) (snd p)) (t_feat T (fst p) y')) in *.
    assert (Q : dot (vsub w w') de <= r * R). { apply dot_le; auto. rewrite vsub_length; congruence. rewrite norm_sub_comm by congruence. auto. apply HF. auto. }
    rewrite dot_vsub_l in Q by congruence. set (a := dot w de) in *. set (b := dot w' de) in *. set (c := r * R) in *. set (q := t_loss T (snd p) y') in *. clearbody a b c q. qclra.
  Qed.
  Lemma hinge_at_zero p h : sized T d p -> (forall y', t_label T (fst p) y' -> t_loss T (snd p) y' <= L) -> is_hinge T (vzero d) (fst p) (snd p) h -> h <= L.
  Proof.
    intros Hp HL [[y' [Ly E]] _]. rewrite <- E. unfold margin. rewrite !dot_vzero_l. replace (t_loss T (snd p) y' - (0 - 0)) with (t_loss T (snd p) y') by ring. auto.
  Qed.
  Lemma hinge_convex p g a b ha hb hm : 0 <= g -> g <= 1 -> length a = length b -> is_hinge T a (fst p) (snd p) ha -> is_hinge T b (fst p) (snd p) hb ->
    is_hinge T (vmix g a b) (fst p) (snd p) hm -> hm <= mix g ha hb.
  Proof.
    intros G0 G1 HL [_ A] [_ B] [[y' [Ly E]] _]. specialize (A y' Ly). specialize (B y' Ly). rewrite <- E. unfold margin in *. unfold vmix. rewrite !dot_vadd_l, !dot_vscale_l by (rewrite !vscale_length; auto).
    unfold mix. set (q := t_loss T (snd p) y') in *. set (f := t_feat T (fst p) (snd p)) in *. set (f' := t_feat T (fst p) y') in *.
    replace (q - ((1 - g) * dot a f + g * dot b f - ((1 - g) * dot a f' + g * dot b f'))) with ((1 - g) * (q - (dot a f - dot a f')) + g * (q - (dot b f - dot b f'))) by ring.
    apply Qcplus_le_compat; apply mult_le_l; auto. qclra.
  Qed.
  Lemma hinge_nonneg p w h : sized T d p -> is_hinge T w (fst p) (snd p) h -> 0 <= h.
  Proof. intros [L0 [Z _]] [_ B]. specialize (B (snd p) L0). unfold margin in B. rewrite Z in B. replace (0 - (dot w (t_feat T (fst p) (snd p)) - dot w (t_feat T (fst p) (snd p)))) with 0 in B by ring. auto. Qed.
End hinge.

(** ** sizes of blocks *)
Section size.
  Context {X Y : Type} (T : task X Y) (d : nat) (C R L : Qc) (n : nat).
  Hypothesis HC : 0 <= C.
  Lemma lsum_scaled (cs : list (Qc * Y)) k : lsum (map (fun q => fst q * k) cs) = lsum (map fst cs) * k.
  Proof. induction cs as [|q cs IH]; cbn [map lsum]; [ring|rewrite IH; ring]. Qed.
  Lemma block_norm p b : sized T d p -> 0 <= R -> (forall y', t_label T (fst p) y' -> normsq (vsub (t_feat T (fst p) (snd p)) (t_feat T (fst p) y')) <= R * R) ->
    block_point T d C n p b -> normsq (fst b) <= C * R * (C * R).
  Proof.
    intros Hp HR HF [cs [H1 [H2 [-> _]]]].
    destruct (norm_vsum d (map (fun q => vscale (fst q * C) (vsub (t_feat T (fst p) (snd p)) (t_feat T (fst p) (snd q)))) cs) (map (fun q => fst q * (C * R)) cs)) as [_ Q].
    { clear H2. induction H1 as [|q cs [Q1 Q2] H1 IH]; cbn [map]; constructor; auto. split; [rewrite vscale_length; apply pair_length; auto|].
      split; [apply Qcmult_nonneg; auto; apply Qcmult_nonneg; auto|]. unfold normsq. rewrite dot_vscale_l, dot_vscale_r. fold (normsq (vsub (t_feat T (fst p) (snd p)) (t_feat T (fst p) (snd q)))).
      replace (fst q * (C * R) * (fst q * (C * R))) with (fst q * C * (fst q * C * (R * R))) by ring. apply mult_le_l; [apply Qcmult_nonneg; auto|]. apply mult_le_l; [apply Qcmult_nonneg; auto|]. apply HF. auto. }
    rewrite lsum_scaled, H2 in Q. replace (1 * (C * R)) with (C * R) in Q by ring. exact Q.
  Qed.
  Lemma block_value p b : (0 < n)%nat -> (forall y', t_label T (fst p) y' -> 0 <= t_loss T (snd p) y') -> block_point T d C n p b -> 0 <= snd b.
  Proof.
    intros HN HF [cs [H1 [_ [_ ->]]]]. assert (NP := Qcinv_pos _ (ofN_pos n HN)). induction H1 as [|q cs [Q1 Q2] H1 IH]; cbn [map lsum]; [apply Qcle_refl|].
    assert (Z : 0 <= fst q * (t_loss T (snd p) (snd q) / ofN n)). { apply Qcmult_nonneg; auto. unfold Qcdiv. apply Qcmult_nonneg; auto. apply Qclt_le_weak; auto. }
    match goal with |- 0 <= ?x + ?y => set (u := x) in *; set (v := y) in * end. clearbody u v. qclra.
  Qed.
End size.

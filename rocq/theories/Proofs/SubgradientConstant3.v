(** Constant learning rate, several steps per pass. *)
From Coq Require Import ZArith Permutation.
From Verif Require Import Model.Subgradient Proofs.Arrays Proofs.LossProofs Proofs.CRFProofs Proofs.LearnerProofs Proofs.QPProofs
  Proofs.NSlackProofs5 Proofs.OneSlackProofs Proofs.OneSlackProofs2 Proofs.SubgradientProofs Proofs.SubgradientProofs2 Proofs.SubgradientProofs3 Proofs.SubgradientProofs4 Proofs.SubgradientProofs5
  Spec.SubgradientRateSpec Proofs.SubgradientRate Proofs.SubgradientRate2 Proofs.SubgradientRate3 Proofs.SubgradientRate4 Proofs.SubgradientRate5.

Lemma Qc_eq_le (a b : Qc) : a = b -> a <= b.
Proof. intros ->. apply Qcle_refl. Qed.
Section abs.
Context (d : nat) (G s : Qc).
Hypothesis HG : 0 <= G.
Hypothesis Hs : 1 <= s.
Fixpoint steps (w : list Qc) (l : list ((list Qc -> Qc) * list Qc)) (w' : list Qc) : Prop :=
  match l with
  | [] => w' = w
  | (F, g) :: r => slope d G F w g /\ length (vsub w (vscale (/ s) g)) = d /\ steps (vsub w (vscale (/ s) g)) r w'
  end.
Lemma steps_gen w0 u : length w0 = d -> length u = d -> forall l i w w', length w = d -> normsq (vsub w w0) <= (ofN i / s) * (ofN i / s) * G ->
  steps w l w' -> Forall (fun p => exists g0, slope d G (fst p) w0 g0) l ->
  s * normsq (vsub w' u) + (vals l w0 + vals l w0) <= s * normsq (vsub w u) + (vals l u + vals l u) + ofN (length l) * (ofN i + ofN i + ofN (length l)) * (G / s).
Proof.
  intros HW0 Hu. assert (P0 := ge1_pos s Hs). assert (NZ := ge1_nz s Hs). induction l as [|[F g] l IH]; intros i w w' HW HD D HF.
  - cbn [steps] in D. subst w'. unfold vals. cbn [map lsum length]. rewrite ofN_0. apply Qc_eq_le. ring.
  - cbn [steps] in D. destruct D as [SL [IB D]]. apply Forall_cons_iff in HF. destruct HF as [[g0 HF] HF']. cbn [fst] in HF.
    set (w1 := vsub w (vscale (/ s) g)) in *. assert (PI := ofN_nonneg i). assert (LG : length g = d) by apply SL.
    assert (LV : length (vsub w w0) = d) by (rewrite vsub_length; congruence).
    assert (PV : 0 <= / s) by (apply Qclt_le_weak, Qcinv_pos; exact P0). assert (PQ : 0 <= ofN i / s) by (apply Qcmult_nonneg; auto).
    assert (NS : normsq (vscale (- / s) g) <= / s * / s * G).
    { rewrite normsq_scale. replace (- / s * - / s) with (/ s * / s) by ring. rewrite !(Qcmult_comm (/ s * / s)). apply Qcmult_le_compat_r; [apply SL|apply Qc_sq_nonneg]. }
    assert (EW : vsub w1 w0 = vadd (vsub w w0) (vscale (- / s) g)).
    { unfold w1. assert (LX : length (vsub w (vscale (/ s) g)) = d) by (rewrite vsub_length; rewrite ?vscale_length; congruence).
      apply vec_ext. { rewrite vsub_length, vadd_length; rewrite ?vscale_length; congruence. }
      intros j _. rewrite get1_vadd by (rewrite vscale_length; congruence). rewrite !get1_vsub by (rewrite ?vscale_length; congruence). rewrite !get1_vscale. ring. }
    assert (HD1 : normsq (vsub w1 w0) <= (ofN (S i) / s) * (ofN (S i) / s) * G).
    { rewrite EW. assert (DT := dot_scaled (vsub w w0) (vscale (- / s) g) (ofN i / s) (/ s) G ltac:(rewrite vscale_length; congruence) PQ PV HG HD NS).
      unfold normsq. rewrite dot_vadd_l, !dot_vadd_r by (rewrite vscale_length; congruence). rewrite (dot_comm (vscale _ g) (vsub w w0)). unfold normsq in HD, NS.
      rewrite ofN_S. replace ((1 + ofN i) / s * ((1 + ofN i) / s) * G) with (ofN i / s * (ofN i / s) * G + (ofN i / s * / s * G + ofN i / s * / s * G) + / s * / s * G) by (unfold Qcdiv; ring).
      set (a := dot (vsub w w0) (vsub w w0)) in *. set (b := dot (vsub w w0) _) in *. set (c := dot (vscale _ g) _) in *. clearbody a b c.
      set (x := ofN i / s * (ofN i / s) * G) in *. set (y := ofN i / s * / s * G) in *. set (z := / s * / s * G) in *. clearbody x y z. clear - DT HD NS. qclra. }
    assert (IH' := IH (S i) w1 w' IB HD1 D HF'). assert (ST := step_sq d G F w g s u Hs HW Hu SL). fold w1 in ST.
    assert (DR : F w0 + F w0 <= F w + F w + (ofN i * (G / s) + ofN i * (G / s))).
    { destruct HF as [L0 [N0 H0]]. specialize (H0 w HW). assert (NN := normsq_nonneg (vsub w w0)).
      assert (N0' : normsq (vscale (-(1)) g0) <= 1 * 1 * G) by (rewrite normsq_scale; replace (-(1) * -(1)) with 1 by ring; rewrite !Qcmult_1_l; exact N0).
      assert (DT := dot_scaled (vscale (-(1)) g0) (vsub w w0) 1 (ofN i / s) G ltac:(rewrite vscale_length; congruence) ltac:(discriminate) PQ HG N0' HD).
      rewrite dot_neg_l in DT. replace (1 * (ofN i / s) * G) with (ofN i * (G / s)) in DT by (unfold Qcdiv; ring).
      set (x := ofN i * (G / s)) in *. set (q := dot g0 (vsub w w0)) in *. set (nn := normsq (vsub w w0)) in *. clearbody x q nn. clear - DT H0 NN. qclra. }
    assert (NU := normsq_nonneg (vsub w u)). unfold vals in *. cbn [map fst lsum length]. rewrite !ofN_S. rewrite ofN_S in IH'.
    set (k := ofN (length l)) in *. set (x := G / s) in *. set (ii := ofN i) in *. set (c := normsq (vsub w u)) in *.
    replace ((s - 1) * c) with (s * c - c) in ST by ring.
    set (la := s * normsq (vsub w' u)) in *. set (lb := s * normsq (vsub w1 u)) in *. set (lc := s * c) in *.
    set (V0 := lsum (map _ l)) in *. set (Vu := lsum (map _ l)) in *.
    replace (k * (1 + ii + (1 + ii) + k) * x) with (k * (ii + ii + k) * x + (k * x + k * x)) in IH' by ring.
    replace ((1 + k) * (ii + ii + (1 + k)) * x) with (k * (ii + ii + k) * x + (k * x + k * x) + (ii * x + ii * x) + x) by ring.
    set (m1 := k * (ii + ii + k) * x) in *. set (m2 := k * x) in *. set (m3 := ii * x) in *.
    set (f0 := F w0) in *. set (fw := F w) in *. set (fu := F u) in *.
    clearbody m1 m2 m3 la lb lc x f0 fw fu V0 Vu c. clear - IH' ST DR NU. qclra.
Qed.
Lemma steps_bound w l w' u : length w = d -> length u = d -> steps w l w' -> Forall (fun p => exists g0, slope d G (fst p) w g0) l ->
  s * normsq (vsub w' u) + (vals l w + vals l w) <= s * normsq (vsub w u) + (vals l u + vals l u) + ofN (length l) * ofN (length l) * (G / s).
Proof.
  intros HW Hu D HF. assert (E := steps_gen w u HW Hu l 0 w w' HW). rewrite ofN_0 in E. replace (0 / s * (0 / s) * G) with 0 in E by (unfold Qcdiv; ring).
  replace (0 + 0 + ofN (length l)) with (ofN (length l)) in E by ring. apply E; auto.
  unfold normsq. rewrite dot_vsub_l, !dot_vsub_r by auto. match goal with |- ?a <= _ => replace a with 0 by ring end. apply Qcle_refl.
Qed.
End abs.

Section const.
Context {X Y : Type} (T : task X Y) (d : nat) (prm : sg_params) (bm : bmodel X Y) (S : list (X * Y)) (R2 lr : Qc) (shuf : nat -> list (X * Y) -> list (X * Y)) (m : nat).
Notation n := (length S).
Notation K := (sg_C prm * ofN n).
Notation BB := (K * K * R2).
Notation GG := ((1 + 1 + 1 + 1) * (K * K * R2)).
Notation s := (K / lr).
Notation f := (comp T (bm_s bm) (sg_C prm) S).
Notation kp := (fun st => shaped d st /\ normsq (sg_w st) <= BB /\ sg_self st = sg_w st).
Hypothesis HC : 0 < sg_C prm.
Hypothesis HM : sg_momentum prm = 0.
Hypothesis HD : sg_decay prm = 0%nat.
Hypothesis HA : sg_avg prm = AvgNone.
Hypothesis Hd : sm_size (bm_s bm) = d.
Hypothesis HO : oracle_exact (bm_s bm) T d S.
Hypothesis HSp : Forall (spread T R2) S.
Hypothesis HR : 0 <= R2.
Hypothesis Hn : (0 < n)%nat.
Hypothesis Hlr : 0 < lr.
Hypothesis HlK : lr <= K.

Lemma cK_nz : K <> 0.
Proof. intro E. assert (P : 0 < K) by (apply Qcmult_pos; [exact HC|apply ofN_pos; exact Hn]). rewrite E in P. discriminate P. Qed.
Lemma clr_nz : lr <> 0.
Proof. intro E. rewrite E in Hlr. discriminate Hlr. Qed.
Lemma cs_ge : 1 <= s.
Proof.
  assert (I := Qcinv_pos lr Hlr). apply Qcle_trans with (lr * / lr); [rewrite Qcmult_inv_r by exact clr_nz; apply Qcle_refl|].
  apply Qcmult_le_compat_r; [exact HlK|apply Qclt_le_weak; exact I].
Qed.
Lemma ccan t : can_step prm n t.
Proof. split; [apply cK_nz|intro E; congruence]. Qed.
Lemma cGG : 0 <= GG.
Proof. apply Qcmult_nonneg; [discriminate|]. apply Qcmult_nonneg; [apply Qc_sq_nonneg|exact HR]. Qed.
Definition stepped (k : Qc) (B : list (X * Y)) (st st' : sg_state) : Prop :=
  kp st' /\ sg_t st' = Datatypes.S (sg_t st) /\ exists g, slope d GG (comp T (bm_s bm) k B) (sg_w st) g /\ sg_w st' = vsub (sg_w st) (vscale (/ s) g).
Lemma direction k B st st' g dl : incl B S -> kp st -> length dl = d -> normsq dl <= R2 -> g = vsub (sg_w st) (vscale K dl) ->
  strong_subgradient T d k B (sg_w st) g -> step_against prm n lr g st st' -> shaped d st' -> stepped k B st st'.
Proof.
  intros IN [SH [NW SE]] LD ND EG SG [E1 [E2 E3]] SH'. unfold rate_at in E1. rewrite HD in E1. cbn [Nat.eqb] in E1.
  assert (SI : lr / K = / s). { assert (A := cK_nz). assert (B' := clr_nz). set (k' := K) in *. clearbody k'. field. auto. }
  rewrite SI in E1. assert (SN := step_norms d prm n R2 (sg_w st) dl s (proj1 SH) LD cs_ge ND NW). cbv zeta in SN. rewrite <- EG, <- E1 in SN. destruct SN as [N1 N2].
  split; [split; [exact SH'|split; [exact N1|rewrite E2, HA; reflexivity]]|]. split; [exact E3|]. exists g. split; [|exact E1].
  apply slope_of; [apply (exact_incl _ _ _ _ _ HO IN)|apply SH|exact SG|exact N2].
Qed.
Lemma on_step p st : In p S -> kp st -> exists st' b, sg_online_step prm (bm_s bm) n lr p st = Ok (st', b) /\ stepped K [p] st st'.
Proof.
  intros Hp HK. destruct (HO p Hp) as [HI HE]. assert (SH := proj1 HK).
  destruct (online_step_dir T d prm HC (bm_s bm) n lr p st Hn HI (HE _ (proj1 SH)) (ccan _) SH HM) as [st' [h [g [A1 [A2 [A3 [A4 [A5 [yh [LY EG]]]]]]]]]].
  exists st', (Qcltb 0 h). split; [exact A1|].
  assert (LD : length (vsub (t_feat T (fst p) (snd p)) (t_feat T (fst p) yh)) = d).
  { destruct HI as [I1 [_ I3]]. destruct (I3 _ I1) as [B1 _]. destruct (I3 _ LY) as [B2 _]. rewrite vsub_length; congruence. }
  apply (direction K [p] st st' g _ ltac:(intros q [<-|[]]; exact Hp) HK LD); auto. exact (proj1 (Forall_forall _ _) HSp p Hp yh LY).
Qed.
Lemma mini_step' B st : batches_exact bm T d S -> incl B S -> B <> [] -> kp st -> exists st', sg_mini_step prm bm n lr B st = Ok st' /\ stepped (K / ofN (length B)) B st st'.
Proof.
  intros [HRe HX] IN NE HK. assert (SH := proj1 HK). assert (BX := HX B IN NE).
  destruct (mini_step_dir T d prm HC bm n lr B st Hn NE HRe BX (ccan _) SH HM) as [st' [g [A1 [A2 [A3 [A4 [Yh [LY EG]]]]]]]].
  exists st'. split; [exact A1|]. assert (HL : (0 < length B)%nat) by (destruct B; [congruence|cbn; lia]). assert (NZ := ofN_neq0 _ HL).
  assert (G : good T d (map fst B) (map snd B)) by (eapply batch_good; apply BX).
  assert (DB := delta_bound T d prm R2 HM HR (map fst B) (map snd B) Yh G LY). rewrite split_pairs, map_length in DB.
  specialize (DB ltac:(apply Forall_forall; intros q Hq; exact (proj1 (Forall_forall _ _) HSp q (IN q Hq)))).
  set (dl := vsub (feat_sum T d (map fst B) (map snd B)) (feat_sum T d (map fst B) Yh)) in *.
  assert (LD : length dl = d) by (unfold dl; rewrite vsub_length; rewrite !(feat_sum_length T d (map fst B) (map snd B)); auto; eapply good_label; eauto).
  assert (EG' : g = vsub (sg_w st) (vscale K (vscale (/ ofN (length B)) dl))).
  { rewrite EG. f_equal. apply vec_ext. { rewrite !vscale_length. reflexivity. } intros i _. rewrite !get1_vscale. unfold Qcdiv. ring. }
  assert (ND : normsq (vscale (/ ofN (length B)) dl) <= R2).
  { rewrite normsq_scale. apply Qcle_trans with (/ ofN (length B) * / ofN (length B) * (ofN (length B) * ofN (length B) * R2)).
    - rewrite !(Qcmult_comm (/ ofN (length B) * / ofN (length B))). apply Qcmult_le_compat_r; [exact DB|apply Qc_sq_nonneg].
    - match goal with |- ?a <= ?b => replace a with b; [apply Qcle_refl|] end. set (z := ofN (length B)) in *. clearbody z. field. exact NZ. }
  exact (direction _ B st st' g _ IN HK ltac:(rewrite vscale_length; exact LD) ND EG' A4 A3 A2).
Qed.

(** passes *)
Definition passed (k : list (X * Y) -> Qc) (Bs : list (list (X * Y))) (st st' : sg_state) : Prop :=
  kp st' /\ sg_t st' = (sg_t st + length Bs)%nat /\ exists l, map fst l = map (fun B => comp T (bm_s bm) (k B) B) Bs /\ steps d GG s (sg_w st) l (sg_w st').
Lemma passed_cons (k : list (X * Y) -> Qc) B Bs st st1 st' : stepped (k B) B st st1 -> passed k Bs st1 st' -> passed k (B :: Bs) st st'.
Proof.
  intros [A1 [A2 [g [A3 A4]]]] [B1 [B2 [l [B3 B4]]]]. split; [exact B1|]. split; [rewrite B2, A2; cbn [length]; lia|].
  exists ((comp T (bm_s bm) (k B) B, g) :: l). split; [cbn [map fst]; rewrite B3; reflexivity|]. cbn [steps]. split; [exact A3|]. rewrite <- A4. split; [apply A1|exact B4].
Qed.
Lemma passed_nil k st : kp st -> passed k [] st st.
Proof. intro H. split; [exact H|]. split; [cbn; lia|]. exists []. split; reflexivity. Qed.
Lemma on_pass : forall S0 st pos, incl S0 S -> kp st -> exists st' pos', sg_online prm (bm_s bm) n lr S0 st pos = Ok (st', pos') /\ passed (fun _ => K) (map (fun p => [p]) S0) st st'.
Proof.
  induction S0 as [|p S0 IH]; intros st pos IN HK; cbn [sg_online].
  - exists st, pos. split; [reflexivity|apply passed_nil; exact HK].
  - destruct (on_step p st (IN p (or_introl eq_refl)) HK) as [st1 [b [E1 E2]]]. rewrite E1. cbn [bind fst snd].
    destruct (IH st1 (if b then pos + 1 else pos)%Z (fun q Hq => IN q (or_intror Hq)) (proj1 E2)) as [st' [pos' [F1 F2]]].
    exists st', pos'. split; [exact F1|]. cbn [map]. exact (passed_cons (fun _ => K) [p] _ st st1 st' E2 F2).
Qed.
Lemma mini_pass b : batches_exact bm T d S -> forall Bs st pos, Forall (fun B => incl B S /\ B <> []) Bs -> kp st ->
  exists st' pos', sg_mini prm bm n lr b Bs st pos = Ok (st', pos') /\ passed (fun B => K / ofN (length B)) Bs st st'.
Proof.
  intro HX. induction Bs as [|B Bs IH]; intros st pos HB HK; cbn [sg_mini].
  - exists st, pos. split; [reflexivity|apply passed_nil; exact HK].
  - apply Forall_cons_iff in HB. destruct HB as [[IN NE] HB]. destruct (mini_step' B st HX IN NE HK) as [st1 [E1 E2]]. rewrite E1. cbn [bind].
    destruct (IH st1 (pos + b)%Z HB (proj1 E2)) as [st' [pos' [F1 F2]]]. exists st', pos'. split; [exact F1|]. exact (passed_cons (fun B => K / ofN (length B)) B _ st st1 st' E2 F2).
Qed.
Lemma slope_ball_on p w : In p S -> length w = d -> normsq w <= BB -> exists g, slope d GG (comp T (bm_s bm) K [p]) w g.
Proof.
  intros Hp Hw NW. destruct (on_step p (SGState w w (vzero d) 0) Hp) as [st' [b [_ [_ [_ [g [A _]]]]]]]; [|exists g; exact A].
  split; [split; [exact Hw|split; [exact Hw|apply vzero_length]]|]. split; [exact NW|reflexivity].
Qed.
Lemma slope_ball_mini B w : batches_exact bm T d S -> incl B S -> B <> [] -> length w = d -> normsq w <= BB -> exists g, slope d GG (comp T (bm_s bm) (K / ofN (length B)) B) w g.
Proof.
  intros HX IN NE Hw NW. destruct (mini_step' B (SGState w w (vzero d) 0) HX IN NE) as [st' [_ [_ [_ [g [A _]]]]]]; [|exists g; exact A].
  split; [split; [exact Hw|split; [exact Hw|apply vzero_length]]|]. split; [exact NW|reflexivity].
Qed.
(** what one pass does to the distance *)
Definition pass_ok : Prop := forall S0 st, Permutation S0 S -> kp st -> exists st' pos, sg_epoch prm bm lr S0 st = Ok (st', pos) /\ kp st' /\ sg_t st' = (sg_t st + m)%nat /\
  forall u, length u = d -> s * normsq (vsub (sg_w st') u) + (ofN m * f (sg_w st) + ofN m * f (sg_w st)) <=
    s * normsq (vsub (sg_w st) u) + (ofN m * f u + ofN m * f u) + ofN m * ofN m * (GG / s).
Lemma passed_bound k Bs st st' : kp st -> length Bs = m -> passed k Bs st st' -> Forall (fun B => exists g, slope d GG (comp T (bm_s bm) (k B) B) (sg_w st) g) Bs ->
  (forall v, lsum (map (fun F => F v) (map (fun B => comp T (bm_s bm) (k B) B) Bs)) = ofN m * f v) ->
  forall u, length u = d -> s * normsq (vsub (sg_w st') u) + (ofN m * f (sg_w st) + ofN m * f (sg_w st)) <=
    s * normsq (vsub (sg_w st) u) + (ofN m * f u + ofN m * f u) + ofN m * ofN m * (GG / s).
Proof.
  intros HK HL [_ [_ [l [L1 L2]]]] HF HV u Hu. assert (LL : length l = m) by (rewrite <- HL, <- (map_length fst l), L1, map_length; reflexivity).
  assert (Q := steps_bound d GG s cGG cs_ge (sg_w st) l (sg_w st') u (proj1 (proj1 HK)) Hu L2). rewrite LL, !(vals_map l _ _ L1), !HV in Q. apply Q.
  clear - L1 HF. revert l L1. induction Bs as [|B Bs IH]; intros [|p l] L1; try discriminate L1; constructor.
  - cbn [map] in L1. injection L1 as -> _. exact (Forall_inv HF).
  - cbn [map] in L1. injection L1 as _ L1. apply IH; [exact (Forall_inv_tail HF)|exact L1].
Qed.
Lemma equal_pass : equal_steps prm n m -> online_mode prm \/ batches_exact bm T d S -> pass_ok.
Proof.
  intros [HJ HB] HBx S0 st HP HK. assert (LS := Permutation_length HP). assert (IN := perm_incl _ _ HP).
  assert (ON : online_mode prm -> m = n -> exists st' pos, sg_epoch prm bm lr S0 st = Ok (st', pos) /\ kp st' /\ sg_t st' = (sg_t st + m)%nat /\
    forall u, length u = d -> s * normsq (vsub (sg_w st') u) + (ofN m * f (sg_w st) + ofN m * f (sg_w st)) <= s * normsq (vsub (sg_w st) u) + (ofN m * f u + ofN m * f u) + ofN m * ofN m * (GG / s)).
  { intros HMo EM. destruct (on_pass S0 st 0 IN HK) as [st' [pos [E P]]]. exists st', pos. split; [rewrite online_epoch by exact HMo; rewrite LS; exact E|].
    assert (ML : length (map (fun p : X * Y => [p]) S0) = m) by (rewrite map_length; congruence).
    split; [apply P|]. split; [rewrite <- ML; apply P|]. apply (passed_bound (fun _ => K) _ st st' HK ML P).
    - apply Forall_forall. intros B HB'. apply in_map_iff in HB'. destruct HB' as [p [<- Hp]]. apply slope_ball_on; [apply IN, Hp|apply HK|apply HK].
    - intro v. assert (CC : concat (map (fun p : X * Y => [p]) S0) = S0) by (clear; induction S0 as [|p S0 IH]; cbn; congruence).
      rewrite (vals_objective T (bm_s bm) (fun _ => K) K _ S v); [|reflexivity|rewrite CC; exact HP|lia]. rewrite ML. f_equal. f_equal. rewrite EM. field. apply ofN_neq0. exact Hn. }
  destruct (sg_batch prm) as [b|] eqn:EB; [|apply ON; [split; auto|exact HB]].
  destruct (Z.eq_dec b 1) as [->|Nb].
  { apply ON; [split; auto|]. destruct HB as [[HB _]|[_ HB]]; [discriminate HB|]; rewrite HB; cbn; lia. }
  destruct HBx as [[_ [E|E]]|HBx]; [congruence|congruence|].
  assert (FF : exists Bs, (if (b =? -1)%Z then Ok [S0] else let! sl := sg_slices n b in Ok (map (fun s => slice (fst s) (snd s) S0) sl)) = Ok Bs /\ concat Bs = S0 /\ Forall (fun B => B <> []) Bs /\
    length Bs = m /\ (0 < m)%nat /\ exists c, (0 < c)%nat /\ n = (m * c)%nat /\ Forall (fun B : list (X * Y) => length B = c) Bs).
  { destruct HB as [[-> ->]|[Pb HB]].
    - exists [S0]. split; [reflexivity|]. split; [cbn; apply app_nil_r|]. split; [constructor; [|constructor]; intro E; subst S0; cbn in LS; lia|]. split; [reflexivity|]. split; [lia|].
      exists n. split; [exact Hn|]. split; [lia|]. constructor; [exact LS|constructor].
    - rewrite <- LS in Hn |- *. destruct (slices_facts S0 b Hn Pb) as [sl [E1 [F1 [F2 [F3 [F4 [F5 F6]]]]]]]. destruct (Z.eqb_spec b (-1)) as [Eb1|Eb1]; [lia|]. rewrite E1. cbn [bind].
      exists (map (fun s => slice (fst s) (snd s) S0) sl). split; [reflexivity|]. split; [exact F1|]. split; [exact F3|].
      assert (P : (0 < Z.to_nat b)%nat) by lia. rewrite <- LS in HB.
      assert (EM : batch_count (length S0) (Z.to_nat b) = m).
      { unfold batch_count. rewrite HB. symmetry. apply (Nat.div_unique _ _ _ (Z.to_nat b - 1)); [lia|]. rewrite (Nat.mul_comm m). lia. }
      rewrite EM in F2. split; [exact F2|]. split; [destruct m; [cbn in HB; lia|lia]|]. exists (Z.to_nat b). split; [exact P|]. split; [exact HB|]. exact (F5 m HB). }
  destruct FF as [Bs [F1 [F2 [F3 [F4 [Pm [c [Pc [F5 F6]]]]]]]]].
  assert (FI : Forall (fun B => incl B S /\ B <> []) Bs).
  { apply Forall_forall. intros B HB'. split; [|exact (proj1 (Forall_forall _ _) F3 B HB')]. eapply incl_tran; [apply concat_incl; exact HB'|rewrite F2; exact IN]. }
  destruct (mini_pass b HBx Bs st 0 FI HK) as [st' [pos [E P]]]. exists st', pos. split.
  { unfold sg_epoch. rewrite HJ. cbn [Z.eqb Pos.eqb]. unfold sg_sequential. rewrite EB. destruct (Z.eqb_spec b 1) as [Eb1|Eb1]; [congruence|]. rewrite LS, F1. cbn [bind]. exact E. }
  split; [apply P|]. split; [rewrite <- F4; apply P|]. apply (passed_bound (fun B => K / ofN (length B)) Bs st st' HK F4 P).
  - eapply Forall_impl; [|exact FI]. intros B [B1 B2]. apply slope_ball_mini; [exact HBx|exact B1|exact B2|apply HK|apply HK].
  - intro v. rewrite (vals_objective T (bm_s bm) (fun B => K / ofN (length B)) (K / ofN c) Bs S v).
    + rewrite F4. f_equal. f_equal. rewrite F5, ofN_mult. assert (N1 := ofN_neq0 m Pm). assert (N2 := ofN_neq0 c Pc). field. auto.
    + intros B HB'. cbn beta. rewrite (proj1 (Forall_forall _ _) F6 B HB'). reflexivity.
    + rewrite F2. exact HP.
    + lia.
Qed.
Lemma objective_is S0 w : Permutation S0 S -> length w = d -> sg_objective prm bm S0 w = Ok (f w).
Proof.
  intros HP Hw. assert (HO0 := exact_incl _ _ _ _ _ HO (perm_incl _ _ HP)). unfold sg_objective. assert (LS := Permutation_length HP).
  destruct (objective_value (bm_s bm) T d w (map fst S0) (map snd S0) (sg_C prm) NSlack) as [hs [A B]].
  - rewrite !map_length. reflexivity.
  - intro E. apply map_eq_nil in E. subst S0. cbn in LS. lia.
  - exact Hw.
  - intros p Hp. rewrite split_pairs in Hp. destruct (HO0 p Hp) as [A1 A2]. auto.
  - rewrite split_pairs in A. rewrite B. f_equal. rewrite (hinges_are T d (bm_s bm) S0 w hs HO0 Hw A). unfold comp, primal_value.
    assert (E : lsum (map (hv T (bm_s bm) w) S0) = lsum (map (hv T (bm_s bm) w) S)).
    { apply (Permutation_map (hv T (bm_s bm) w)) in HP. clear - HP. induction HP; cbn [lsum]; [reflexivity|rewrite IHHP; reflexivity|ring|congruence]. }
    rewrite E. reflexivity.
Qed.
Hypothesis HSh : forall it S', Permutation S' S -> Permutation (shuf it S') S.
Hypothesis HBr : sg_break prm = false \/ mini_mode prm.
Hypothesis HPass : pass_ok.
Lemma passes : forall k it S0 st c, Permutation S0 S -> kp st -> exists st' vs S',
  sg_loop prm bm lr shuf k it S0 st c = Ok (st', c ++ vs, S') /\ Permutation S' S /\ kp st' /\ sg_t st' = (sg_t st + k * m)%nat /\ length vs = k /\
  forall u, length u = d -> s * normsq (vsub (sg_w st') u) + (ofN m * lsum (firstn k (f (sg_w st) :: vs)) + ofN m * lsum (firstn k (f (sg_w st) :: vs))) <=
    s * normsq (vsub (sg_w st) u) + ofN k * (ofN m * f u + ofN m * f u + ofN m * ofN m * (GG / s)).
Proof.
  induction k as [|k IH]; intros it S0 st c HP HK; cbn [sg_loop].
  - exists st, [], S0. rewrite app_nil_r. split; [reflexivity|]. split; [exact HP|]. split; [exact HK|]. split; [lia|]. split; [reflexivity|].
    intros u _. cbn [firstn lsum]. rewrite ofN_0. apply Qc_eq_le. ring.
  - assert (HP' := HSh it S0 HP). destruct (HPass (shuf it S0) st HP' HK) as [st1 [pos [E1 [E2 [E3 E4]]]]]. rewrite E1. cbn [bind fst snd].
    assert (NB : ((pos =? 0)%Z && sg_break prm)%bool = false).
    { destruct HBr as [HB'|HB']; [rewrite HB'; apply Bool.andb_false_r|]. destruct (Z.eqb_spec pos 0) as [Z0|]; [|reflexivity]. exfalso. exact (mini_epoch_pos _ _ _ _ _ _ _ HB' E1 Z0). }
    rewrite NB. rewrite (objective_is (shuf it S0) (sg_self st1) HP' (proj1 (proj2 (proj1 E2)))). cbn [bind].
    destruct (IH (Datatypes.S it) (shuf it S0) st1 (c ++ [f (sg_self st1)]) HP' E2) as [st' [vs [S' [F1 [F2 [F3 [F4 [F5 F6]]]]]]]].
    exists st', (f (sg_self st1) :: vs), S'. rewrite <- app_assoc in F1. split; [exact F1|]. split; [exact F2|]. split; [exact F3|]. split; [rewrite F4, E3; lia|]. split; [cbn [length]; lia|].
    intros u Hu. specialize (F6 u Hu). specialize (E4 u Hu). rewrite (proj2 (proj2 E2)). change (firstn (Datatypes.S k) (f (sg_w st) :: f (sg_w st1) :: vs)) with (f (sg_w st) :: firstn k (f (sg_w st1) :: vs)).
    cbn [lsum]. rewrite ofN_S. set (V := lsum (firstn k _)) in *. set (f0 := f (sg_w st)) in *. set (fu := f u) in *. set (x := GG / s) in *. set (mm := ofN m) in *. set (kk := ofN k) in *.
    replace (mm * (f0 + V)) with (mm * f0 + mm * V) by ring. replace ((1 + kk) * (mm * fu + mm * fu + mm * mm * x)) with (mm * fu + mm * fu + mm * mm * x + kk * (mm * fu + mm * fu + mm * mm * x)) by ring.
    set (q := kk * (mm * fu + mm * fu + mm * mm * x)) in *. set (a := mm * f0) in *. set (b := mm * V) in *. set (e := mm * fu) in *. set (g := mm * mm * x) in *.
    set (s0 := s * normsq (vsub (sg_w st') u)) in *. set (s1 := s * normsq (vsub (sg_w st1) u)) in *. set (s2 := s * normsq (vsub (sg_w st) u)) in *. clearbody q a b e g s0 s1 s2. clear - F6 E4. qclra.
Qed.
End const.

Lemma mean_above (x : Qc) : forall l, l <> [] -> lsum l <= ofN (length l) * x -> exists v, In v l /\ v <= x.
Proof.
  induction l as [|a l IH]; intros NE H; [congruence|]. destruct (Qclt_le_dec x a) as [L|L]; [|exists a; split; [left; reflexivity|exact L]].
  cbn [lsum length] in H. rewrite ofN_S in H. destruct l as [|b l]; [cbn [lsum length] in H; rewrite ofN_0 in H; exfalso; apply (Qclt_not_le _ _ L); replace ((1 + 0) * x) with x in H by ring; replace (a + 0) with a in H by ring; exact H|].
  destruct IH as [v [A B]]; [discriminate| |exists v; split; [right; exact A|exact B]]. set (t := lsum _) in *. replace ((1 + ofN (length (b :: l))) * x) with (x + ofN (length (b :: l)) * x) in H by ring.
  set (z := ofN _ * x) in *. clearbody t z. clear - H L. qclra.
Qed.

Lemma const_best {X Y} (T : task X Y) d (bm : bmodel X Y) S R2 lr shuf m prm (warm : bool) L : 0 < sg_C prm -> (0 < length S)%nat -> sm_size (bm_s bm) = d ->
  oracle_exact (bm_s bm) T d S -> online_mode prm \/ batches_exact bm T d S -> 0 <= R2 -> Forall (spread T R2) S ->
  sg_momentum prm = 0 -> sg_decay prm = 0%nat -> sg_avg prm = AvgNone -> equal_steps prm (length S) m -> sg_break prm = false \/ mini_mode prm ->
  (forall it S', Permutation S' S -> Permutation (shuf it S') S) ->
  let K := sg_C prm * ofN (length S) in
  0 < lr -> lr <= K -> forall c0,
  (if warm then exists w, sl_fitted L = Some (w, lr, c0) else c0 = [] /\ (sg_lr prm = Some lr \/ sg_lr prm = None /\ lr = K)) ->
  length (start_weights d L) = d -> normsq (start_weights d L) <= K * K * R2 -> (0 < sg_max_iter prm)%nat ->
  let E := sg_max_iter prm in
  exists w hw vs, sg_fit prm bm shuf warm S L = Ok (SGLearner (sl_t L + E * m) (Some (w, lr, c0 ++ vs ++ [primal_value (sg_C prm) w hw]))) /\ length vs = E /\
  length w = d /\ normsq w <= K * K * R2 /\ hinges T w S hw /\
  forall h0 u hu, hinges T (start_weights d L) S h0 -> length u = d -> hinges T u S hu ->
    exists v, In v (firstn E (primal_value (sg_C prm) (start_weights d L) h0 :: vs)) /\
      v <= primal_value (sg_C prm) u hu + K / lr * normsq (vsub (start_weights d L) u) / ((1 + 1) * ofN (m * E)) + (1 + 1) * ofN m * (lr * K * R2).
Proof.
  intros HC Hn Hd HO HBx HR HSp HM HD HA HE HBr HSh K Hlr HlK c0 HL LW NW HE0 E. set (st0 := SGState (start_weights d L) (start_weights d L) (vzero d) (sl_t L)).
  assert (Pm : (0 < m)%nat).
  { destruct HE as [_ HE]. destruct (sg_batch prm); [destruct HE as [[_ ->]|[_ HE]]; [lia|]|lia]. destruct m; [cbn in HE; lia|lia]. }
  assert (LC : (if warm then match sl_fitted L with Some (_, lr, c) => Ok (lr, c) | None => Err AttributeError end
      else Ok (match sg_lr prm with None => sg_C prm * ofN (length S) | Some r => r end, [])) = Ok (lr, c0)).
  { destruct warm; [destruct HL as [w EL]; rewrite EL; reflexivity|]. destruct HL as [-> [EL|[EL E']]]; rewrite EL; [|rewrite E']; reflexivity. }
  assert (HP := equal_pass T d prm bm S R2 lr m HC HM HD HA Hd HO HSp HR Hn Hlr HlK HE HBx).
  destruct (passes T d prm bm S R2 lr shuf m HD Hd HO Hn HSh HBr HP E 0 S st0 c0 (Permutation_refl S)) as [st' [vs [S' [F1 [F2 [F3 [F4 [F5 F6]]]]]]]].
  { split; [split; [exact LW|split; [exact LW|apply vzero_length]]|]. split; [exact NW|reflexivity]. }
  destruct F3 as [SH' [NW' SE']]. assert (HH := hinges_hv T d (bm_s bm) S (sg_w st') HO (proj1 SH')).
  exists (sg_w st'), (map (hv T (bm_s bm) (sg_w st')) S), vs. split.
  - unfold sg_fit. rewrite LC. cbn [bind fst snd]. rewrite Hd. change (SGState _ _ _ _) with st0. fold E. rewrite F1. cbn [bind].
    rewrite (objective_is T d prm bm S HD Hd HO Hn S' (sg_self st') F2 (proj1 (proj2 SH'))). cbn [bind]. rewrite F4, SE', <- app_assoc. reflexivity.
  - split; [exact F5|]. split; [apply SH'|]. split; [exact NW'|]. split; [exact HH|]. intros h0 u hu H0 Hu HU. specialize (F6 u Hu). cbn [st0 sg_w] in F6.
    rewrite (hinges_are T d (bm_s bm) S u hu HO Hu HU), (hinges_are T d (bm_s bm) S _ h0 HO LW H0).
    change (primal_value (sg_C prm) ?v (map (hv T (bm_s bm) ?v) S)) with (comp T (bm_s bm) (sg_C prm) S v). set (f := comp T (bm_s bm) (sg_C prm) S) in *.
    set (vs' := f (start_weights d L) :: vs) in *. assert (LV : length (firstn E vs') = E) by (rewrite firstn_length; unfold vs'; cbn [length]; lia).
    apply mean_above. { intro Z0. rewrite Z0 in LV. cbn in LV. unfold E in LV. lia. }
    rewrite LV. assert (NN := normsq_nonneg (vsub (sg_w st') u)). assert (PE : 0 < ofN E) by (apply ofN_pos; exact HE0). assert (PM := ofN_pos m Pm). rewrite ofN_mult.
    assert (PK : 0 < K) by (apply Qcmult_pos; [exact HC|apply ofN_pos; exact Hn]).
    assert (PS : 0 < K / lr) by (apply Qcmult_pos; [exact PK|apply Qcinv_pos; exact Hlr]).
    assert (NS := Qcmult_nonneg _ _ (Qclt_le_weak _ _ PS) NN). fold K in F6. set (V := lsum _) in *. set (D0 := normsq (vsub (start_weights d L) u)) in *. set (Q := K / lr * normsq (vsub (sg_w st') u)) in *.
    assert (G2 : ofN m * V + ofN m * V <= K / lr * D0 + ofN E * (ofN m * f u + ofN m * f u + ofN m * ofN m * ((1 + 1 + 1 + 1) * (K * K * R2) / (K / lr)))).
    { set (a := ofN m * V) in *. set (b := K / lr * D0) in *. set (c := ofN E * _) in *. clearbody a b c Q. clear - F6 NS. qclra. }
    assert (N1 : ofN E <> 0) by (intro Z0; rewrite Z0 in PE; discriminate PE). assert (N2 : ofN m <> 0) by (intro Z0; rewrite Z0 in PM; discriminate PM).
    assert (N3 : K <> 0) by (intro Z0; rewrite Z0 in PK; discriminate PK). assert (N4 : lr <> 0) by (intro Z0; rewrite Z0 in Hlr; discriminate Hlr).
    assert (P2 : 0 < / ((1 + 1) * ofN m)) by (apply Qcinv_pos, Qcmult_pos; [reflexivity|exact PM]).
    apply (Qcmult_le_compat_r _ _ (/ ((1 + 1) * ofN m))) in G2; [|apply Qclt_le_weak; exact P2].
    assert (TW : (1 + 1 : Qc) <> 0) by discriminate. set (ee := ofN E) in *. set (mm := ofN m) in *. set (fu := f u) in *. clearbody ee mm fu K D0 V.
    assert (EA : (mm * V + mm * V) * / ((1 + 1) * mm) = V) by (field; split; [exact N2|exact TW]). rewrite EA in G2. eapply Qcle_trans; [exact G2|]. apply Qc_eq_le. field. repeat split; assumption.
Qed.

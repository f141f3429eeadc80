(** Steps, epochs and calls of fit as descents. *)
From Coq Require Import ZArith Permutation.
From Verif Require Import Model.Subgradient Proofs.Arrays Proofs.LossProofs Proofs.CRFProofs Proofs.LearnerProofs Proofs.QPProofs
  Proofs.NSlackProofs5 Proofs.OneSlackProofs Proofs.OneSlackProofs2 Proofs.SubgradientProofs Proofs.SubgradientProofs2 Proofs.SubgradientProofs3 Proofs.SubgradientProofs4
  Spec.SubgradientRateSpec Proofs.SubgradientRate Proofs.SubgradientRate2.

Section walk.
Context {X Y : Type} (T : task X Y) (d : nat) (prm : sg_params) (m : smodel X Y) (n : nat) (R : Qc).
Hypothesis HC : 0 < sg_C prm.
Hypothesis HM : sg_momentum prm = 0.
Hypothesis HD : sg_decay prm = 1%nat.
Hypothesis HT : 1 <= sg_t0 prm.
Hypothesis HR : 0 <= R.
Hypothesis Hn : (0 < n)%nat.
Notation K := (sg_C prm * ofN n).
Notation BB := (K * K * R).
Notation GG := ((1 + 1 + 1 + 1) * (K * K * R)).

(** the hinge loss found by loss-augmented inference *)
Definition hv (w : list Qc) (p : X * Y) : Qc :=
  match sm_laug m (fst p) (snd p) w with Ok yh => margin T w (fst p) (snd p) yh | Err _ => 0 end.
Lemma hv_hinge w p : exact_laug m T w (fst p) (snd p) -> is_hinge T w (fst p) (snd p) (hv w p).
Proof.
  intros [yh [E [L H]]]. unfold hv. rewrite E. split; [exists yh; auto|]. intros y' Hy'. specialize (H y' Hy'). unfold margin.
  set (a := dot w (t_feat T (fst p) y')) in *. set (b := dot w (t_feat T (fst p) yh)) in *. set (c := dot w (t_feat T (fst p) (snd p))). clearbody a b c. clear - H. qclra.
Qed.
Lemma hinges_hv B w : oracle_exact m T d B -> length w = d -> hinges T w B (map (hv w) B).
Proof.
  intros HO Hw. unfold hinges. induction B as [|p B IH]; cbn [map]; [constructor|]. constructor; [apply hv_hinge; apply (HO p (or_introl eq_refl)); exact Hw|].
  apply IH. intros q Hq. apply HO. right. exact Hq.
Qed.
Lemma hinges_are B w hs : oracle_exact m T d B -> length w = d -> hinges T w B hs -> hs = map (hv w) B.
Proof.
  intros HO Hw H. assert (Q := hinges_hv B w HO Hw). rewrite <- (split_pairs B) in H, Q. rewrite <- (split_pairs B) at 1.
  rewrite (hinges_unique T (map fst B) (map snd B) w _ _ H Q). rewrite split_pairs. reflexivity.
Qed.
Definition comp (k : Qc) (B : list (X * Y)) (w : list Qc) : Qc := primal_value k w (map (hv w) B).
Lemma slope_of k B w g : oracle_exact m T d B -> length w = d -> strong_subgradient T d k B w g -> normsq g <= GG -> slope d GG (comp k B) w g.
Proof.
  intros HO Hw [LG H] NG. split; [exact LG|]. split; [exact NG|]. intros w' Hw'. specialize (H w' _ _ Hw' (hinges_hv B w HO Hw) (hinges_hv B w' HO Hw')).
  fold (comp k B w) in H. fold (comp k B w') in H. set (a := comp k B w) in *. set (b := comp k B w') in *. set (c := dot g (vsub w' w)) in *. set (e := normsq (vsub w' w)) in *. clearbody a b c e.
  assert (E : e = e / (1 + 1) + e / (1 + 1)) by (field; discriminate). set (x := e / (1 + 1)) in *. clearbody x. rewrite E. clear - H. qclra.
Qed.

Definition keeps (st : sg_state) : Prop := shaped d st /\ normsq (sg_w st) <= BB /\ (sg_avg prm = AvgNone -> sg_self st = sg_w st).
(** a step against a subgradient of the component of [B] with factor [k] *)
Definition moved (k : Qc) (B : list (X * Y)) (st st' : sg_state) : Prop :=
  exists g, strong_subgradient T d k B (sg_w st) g /\ normsq g <= GG /\
    sg_w st' = vsub (sg_w st) (vscale (/ (ofN (sg_t st) + sg_t0 prm)) g) /\ sg_t st' = Datatypes.S (sg_t st) /\
    sg_self st' = sg_expose (sg_avg prm) (sg_t st) (sg_self st) (sg_w st').
Definition steppable (k : Qc) (B : list (X * Y)) : Prop := oracle_exact m T d B /\ forall st, keeps st -> exists st', moved k B st st'.
Lemma steppable_sloped k B : steppable k B -> sloped d GG BB (comp k B).
Proof.
  intros [HO HS] w [Hw NW]. destruct (HS (SGState w w (vzero d) 0)) as [st' [g [A [A' _]]]].
  { split; [split; [exact Hw|split; [exact Hw|apply vzero_length]]|]. split; [exact NW|reflexivity]. }
  exists g. apply slope_of; auto.
Qed.

(** the direction w - K dl with |dl|^2 <= R *)
Lemma direction_moved k B st st' g dl : keeps st -> length dl = d -> normsq dl <= R -> g = vsub (sg_w st) (vscale K dl) ->
  strong_subgradient T d k B (sg_w st) g -> step_against prm n K g st st' -> shaped d st' -> moved k B st st' /\ keeps st'.
Proof.
  intros [SH [NW SE]] LD ND EG SG [E1 [E2 E3]] SH'. rewrite (rate_pegasos prm HC HD HT n Hn) in E1.
  assert (SN := step_norms d prm n R (sg_w st) dl (ofN (sg_t st) + sg_t0 prm) (proj1 SH) LD (time_ge prm HT _) ND NW). cbv zeta in SN. rewrite <- EG, <- E1 in SN. destruct SN as [N1 N2].
  split; [exists g; auto|]. split; [exact SH'|]. split; [exact N1|]. intro HA. rewrite E2, HA. reflexivity.
Qed.

Fixpoint walk (k : list (X * Y) -> Qc) (Bs : list (list (X * Y))) (st st' : sg_state) : Prop :=
  match Bs with
  | [] => st' = st
  | B :: r => exists st1, moved (k B) B st st1 /\ keeps st1 /\ walk k r st1 st'
  end.
Lemma walk_descent k Bs : forall st st', keeps st -> Forall (fun B => steppable (k B) B) Bs -> walk k Bs st st' ->
  keeps st' /\ sg_t st' = (sg_t st + length Bs)%nat /\ exists l, map fst l = map (fun B => comp (k B) B) Bs /\
    descent d GG BB (ofN (sg_t st) + sg_t0 prm) (sg_w st) l (sg_w st') /\ Forall (fun p => sloped d GG BB (fst p)) l.
Proof.
  clear HC HM HD HT HR Hn. induction Bs as [|B Bs IH]; intros st st' HK HS HW; cbn [walk] in HW.
  - subst st'. split; [exact HK|]. split; [cbn; lia|]. exists []. split; [reflexivity|]. split; [reflexivity|constructor].
  - destruct HW as [st1 [[g [A1 [A2 [A3 [A4 _]]]]] [HK1 HW]]]. apply Forall_cons_iff in HS. destruct HS as [HS HS'].
    destruct (IH st1 st' HK1 HS' HW) as [B1 [B2 [l [B3 [B4 B5]]]]]. split; [exact B1|]. split; [rewrite B2, A4; cbn [length]; lia|].
    exists ((comp (k B) B, g) :: l). split; [cbn [map fst]; rewrite B3; reflexivity|]. split.
    + cbn [descent]. split; [apply slope_of; [apply HS|apply HK|exact A1|exact A2]|]. rewrite <- A3. split; [split; [apply HK1|apply HK1]|].
      rewrite A4, ofN_S in B4. replace (ofN (sg_t st) + sg_t0 prm + 1) with (1 + ofN (sg_t st) + sg_t0 prm) by ring. exact B4.
    + constructor; [apply steppable_sloped; exact HS|exact B5].
Qed.
Lemma vals_map (l : list ((list Qc -> Qc) * list Qc)) (fs : list (list Qc -> Qc)) v : map fst l = fs -> vals l v = lsum (map (fun F => F v) fs).
Proof. intros <-. unfold vals. rewrite map_map. reflexivity. Qed.

(** total of the components of an epoch *)
Lemma vals_const k kk Bs v : (forall B, In B Bs -> k B = kk) ->
  lsum (map (fun F => F v) (map (fun B => comp (k B) B) Bs)) = kk * lsum (map (hv v) (concat Bs)) + ofN (length Bs) * (normsq v / (1 + 1)).
Proof.
  induction Bs as [|B Bs IH]; intro H; cbn [map lsum concat length].
  - rewrite ofN_0. ring.
  - rewrite IH by (intros B' HB'; apply H; right; exact HB'). rewrite (H B (or_introl eq_refl)). unfold comp, primal_value. rewrite map_app, lsum_app, ofN_S. ring.
Qed.
Lemma vals_objective k kk Bs S v : (forall B, In B Bs -> k B = kk) -> Permutation (concat Bs) S -> (0 < length Bs)%nat ->
  lsum (map (fun F => F v) (map (fun B => comp (k B) B) Bs)) = ofN (length Bs) * comp (kk / ofN (length Bs)) S v.
Proof.
  intros H HP HL. rewrite (vals_const k kk Bs v H). unfold comp, primal_value.
  assert (E : lsum (map (hv v) (concat Bs)) = lsum (map (hv v) S)).
  { apply (Permutation_map (hv v)) in HP. clear - HP. induction HP; cbn [lsum]; [reflexivity|rewrite IHHP; reflexivity|ring|congruence]. }
  rewrite E. assert (NZ := ofN_neq0 _ HL). set (a := lsum _). set (b := normsq v / (1 + 1)). set (z := ofN (length Bs)) in *. clearbody a b z. field. exact NZ.
Qed.
(** ... with a factor for every sample *)
Definition factors (k : list (X * Y) -> Qc) (Bs : list (list (X * Y))) : list Qc :=
  concat (map (fun B => repeat (k B / ofN (length Bs)) (length B)) Bs).
Lemma zip_repeat c (B : list (X * Y)) v cs l : zipw Qcmult (repeat c (length B) ++ cs) (map (hv v) B ++ l) = map (fun p => c * hv v p) B ++ zipw Qcmult cs l.
Proof. induction B as [|p B IH]; [reflexivity|]. cbn [length repeat map app zipw]. f_equal. exact IH. Qed.
Lemma lsum_factor c (B : list (X * Y)) v : lsum (map (fun p => c * hv v p) B) = c * lsum (map (hv v) B).
Proof. induction B as [|p B IH]; cbn [map lsum]; [ring|]. rewrite IH. ring. Qed.
Lemma vals_weighted k Bs v : (0 < length Bs)%nat ->
  lsum (map (fun F => F v) (map (fun B => comp (k B) B) Bs)) = ofN (length Bs) * weighted_value (factors k Bs) v (map (hv v) (concat Bs)).
Proof.
  intro HL. assert (NZ := ofN_neq0 _ HL). unfold weighted_value, factors. set (z := ofN (length Bs)) in *.
  assert (E : forall Bs, lsum (map (fun F => F v) (map (fun B => comp (k B) B) Bs)) =
     z * lsum (zipw Qcmult (concat (map (fun B => repeat (k B / z) (length B)) Bs)) (map (hv v) (concat Bs))) + ofN (length Bs) * (normsq v / (1 + 1))).
  { clear HL. clearbody z. induction Bs0 as [|B Bs0 IH]; cbn [map lsum concat length].
    - cbn [zipw lsum]. rewrite ofN_0. ring.
    - rewrite IH. rewrite map_app, zip_repeat, lsum_app, lsum_factor, ofN_S. unfold comp, primal_value. set (a := lsum (map (hv v) B)). set (b := lsum (zipw _ _ _)). set (c := normsq v / (1 + 1)). set (e := ofN (length Bs0)).
      clearbody a b c e. field. exact NZ. }
  rewrite E. fold z. ring.
Qed.
End walk.

(** ** the three kinds of steps *)
Section modes.
Context {X Y : Type} (T : task X Y) (d : nat) (prm : sg_params) (n : nat) (R2 : Qc).
Hypothesis HC : 0 < sg_C prm.
Hypothesis HM : sg_momentum prm = 0.
Hypothesis HD : sg_decay prm = 1%nat.
Hypothesis HT : 1 <= sg_t0 prm.
Hypothesis HR : 0 <= R2.
Hypothesis Hn : (0 < n)%nat.
Notation K := (sg_C prm * ofN n).

Lemma online_moved (m : smodel X Y) R p st : R2 <= R -> oracle_exact m T d [p] -> spread T R2 p -> keeps d prm n R st ->
  exists st' b, sg_online_step prm m n K p st = Ok (st', b) /\ moved T d prm n R K [p] st st' /\ keeps d prm n R st'.
Proof.
  intros HRR HO HS HK. destruct (HO p (or_introl eq_refl)) as [HI HE]. assert (SH := proj1 HK).
  destruct (online_step_dir T d prm HC m n K p st Hn HI (HE _ (proj1 SH)) (always_step prm HC HT n Hn _) SH HM) as [st' [h [g [A1 [A2 [A3 [A4 [A5 [yh [LY EG]]]]]]]]]].
  exists st', (Qcltb 0 h). split; [exact A1|].
  assert (LD : length (vsub (t_feat T (fst p) (snd p)) (t_feat T (fst p) yh)) = d).
  { destruct HI as [I1 [_ I3]]. destruct (I3 _ I1) as [B1 _]. destruct (I3 _ LY) as [B2 _]. rewrite vsub_length; congruence. }
  exact (direction_moved T d prm n R HC HD HT Hn K [p] st st' g _ HK LD (Qcle_trans _ _ _ (HS yh LY) HRR) EG A5 A4 A3).
Qed.
Lemma par_moved (m : smodel X Y) R b B st : sm_size m = d -> oracle_exact m T d B -> Forall (spread T R2) B -> (length B <= b)%nat -> ofN b * ofN b * R2 <= R -> keeps d prm n R st ->
  exists st' k, sg_par_step prm m n K B st = Ok (st', k) /\ moved T d prm n R K B st st' /\ keeps d prm n R st'.
Proof.
  intros Hd HO HS HB HRR HK. assert (SH := proj1 HK).
  destruct (par_step_dir T d prm m n K B st HC Hn Hd HO (always_step prm HC HT n Hn _) SH HM) as [st' [k [g [A1 [A2 [A3 [A4 [Yh [LY EG]]]]]]]]].
  exists st', k. split; [exact A1|].
  assert (GB : good T d (map fst B) (map snd B)).
  { split; [rewrite !map_length; reflexivity|]. rewrite split_pairs. intros q Hq. destruct (HO q Hq) as [[I1 [I2 I3]] _]. split; [exact I1|]. split; [exact I2|]. intros y' Hy. apply I3. exact Hy. }
  assert (DB := delta_bound T d prm R2 HM HR (map fst B) (map snd B) Yh GB LY). rewrite split_pairs, map_length in DB. specialize (DB HS).
  set (dl := vsub (feat_sum T d (map fst B) (map snd B)) (feat_sum T d (map fst B) Yh)) in *.
  assert (LD : length dl = d) by (unfold dl; rewrite vsub_length; rewrite !(feat_sum_length T d (map fst B) (map snd B)); auto; eapply good_label; eauto).
  assert (NB : normsq dl <= R).
  { eapply Qcle_trans; [exact DB|]. eapply Qcle_trans; [|exact HRR]. apply Qcmult_le_compat_r; [|exact HR]. apply sq_mono; [apply ofN_nonneg|].
    replace b with (length B + (b - length B))%nat by lia. rewrite ofN_plus. assert (Q := ofN_nonneg (b - length B)). clear - Q. qclra. }
  exact (direction_moved T d prm n R HC HD HT Hn K B st st' g _ HK LD NB EG A4 A3 A2).
Qed.
Lemma mini_moved (bm : bmodel X Y) R B st : B <> [] -> sm_rescale (bm_s bm) = false -> batch_exact bm T d (map fst B) (map snd B) -> Forall (spread T R2) B -> R2 <= R -> keeps d prm n R st ->
  exists st', sg_mini_step prm bm n K B st = Ok st' /\ moved T d prm n R (K / ofN (length B)) B st st' /\ keeps d prm n R st'.
Proof.
  intros HB HRS HX HS HRR HK. assert (SH := proj1 HK).
  destruct (mini_step_dir T d prm HC bm n K B st Hn HB HRS HX (always_step prm HC HT n Hn _) SH HM) as [st' [g [A1 [A2 [A3 [A4 [Yh [LY EG]]]]]]]].
  exists st'. split; [exact A1|]. assert (HL : (0 < length B)%nat) by (destruct B; [congruence|cbn; lia]). assert (NZ := ofN_neq0 _ HL).
  assert (G : good T d (map fst B) (map snd B)) by (eapply batch_good; apply HX).
  assert (DB := delta_bound T d prm R2 HM HR (map fst B) (map snd B) Yh G LY). rewrite split_pairs, map_length in DB. specialize (DB HS).
  set (dl := vsub (feat_sum T d (map fst B) (map snd B)) (feat_sum T d (map fst B) Yh)) in *.
  assert (LD : length dl = d) by (unfold dl; rewrite vsub_length; rewrite !(feat_sum_length T d (map fst B) (map snd B)); auto; eapply good_label; eauto).
  assert (EG' : g = vsub (sg_w st) (vscale K (vscale (/ ofN (length B)) dl))).
  { rewrite EG. f_equal. apply vec_ext. { rewrite !vscale_length. reflexivity. } intros i _. rewrite !get1_vscale. unfold Qcdiv. ring. }
  assert (ND : normsq (vscale (/ ofN (length B)) dl) <= R).
  { eapply Qcle_trans; [|exact HRR]. rewrite normsq_scale. apply Qcle_trans with (/ ofN (length B) * / ofN (length B) * (ofN (length B) * ofN (length B) * R2)).
    - rewrite !(Qcmult_comm (/ ofN (length B) * / ofN (length B))). apply Qcmult_le_compat_r; [exact DB|apply Qc_sq_nonneg].
    - match goal with |- ?a <= ?b => replace a with b; [apply Qcle_refl|] end. set (z := ofN (length B)) in *. clearbody z. field. exact NZ. }
  assert (LD' : length (vscale (/ ofN (length B)) dl) = d) by (rewrite vscale_length; exact LD).
  exact (direction_moved T d prm n R HC HD HT Hn _ B st st' g _ HK LD' ND EG' A4 A3 A2).
Qed.

(** ... and epochs of them *)
Lemma online_walk (m : smodel X Y) R : R2 <= R -> forall S st pos, oracle_exact m T d S -> Forall (spread T R2) S -> keeps d prm n R st ->
  exists st' pos', sg_online prm m n K S st pos = Ok (st', pos') /\ walk T d prm n R (fun _ => K) (map (fun p => [p]) S) st st' /\ keeps d prm n R st'.
Proof.
  intro HRR. induction S as [|p S IH]; intros st pos HO HS HK; cbn [sg_online].
  - exists st, pos. split; [reflexivity|]. split; [reflexivity|exact HK].
  - apply Forall_cons_iff in HS. destruct HS as [HS HS'].
    destruct (online_moved m R p st HRR) as [st1 [b [E1 [E2 E3]]]]; auto. { intros q [<-|[]]. apply HO. left. reflexivity. }
    rewrite E1. cbn [bind fst snd]. destruct (IH st1 (if b then pos + 1 else pos)%Z) as [st' [pos' [F1 [F2 F3]]]]; auto. { intros q Hq. apply HO. right. exact Hq. }
    exists st', pos'. split; [exact F1|]. split; [|exact F3]. cbn [map walk]. exists st1. auto.
Qed.
Lemma par_walk (m : smodel X Y) R b : sm_size m = d -> ofN b * ofN b * R2 <= R -> forall Bs st pos, Forall (oracle_exact m T d) Bs -> Forall (Forall (spread T R2)) Bs ->
  Forall (fun B => (length B <= b)%nat) Bs -> keeps d prm n R st ->
  exists st' pos', sg_par prm m n K Bs st pos = Ok (st', pos') /\ walk T d prm n R (fun _ => K) Bs st st' /\ keeps d prm n R st'.
Proof.
  intros Hd HRR. induction Bs as [|B Bs IH]; intros st pos HO HS HB HK; cbn [sg_par].
  - exists st, pos. split; [reflexivity|]. split; [reflexivity|exact HK].
  - apply Forall_cons_iff in HO, HS, HB. destruct HO as [HO HO']. destruct HS as [HS HS']. destruct HB as [HB HB'].
    destruct (par_moved m R b B st Hd HO HS HB HRR HK) as [st1 [k [E1 [E2 E3]]]]. rewrite E1. cbn [bind fst snd].
    destruct (IH st1 (pos + Z.of_nat k)%Z HO' HS' HB' E3) as [st' [pos' [F1 [F2 F3]]]].
    exists st', pos'. split; [exact F1|]. split; [|exact F3]. cbn [walk]. exists st1. auto.
Qed.
Lemma mini_walk (bm : bmodel X Y) R b : sm_rescale (bm_s bm) = false -> R2 <= R -> forall Bs st pos, Forall (fun B => B <> []) Bs -> Forall (fun B => batch_exact bm T d (map fst B) (map snd B)) Bs ->
  Forall (Forall (spread T R2)) Bs -> keeps d prm n R st ->
  exists st' pos', sg_mini prm bm n K b Bs st pos = Ok (st', pos') /\ walk T d prm n R (fun B => K / ofN (length B)) Bs st st' /\ keeps d prm n R st'.
Proof.
  intros HRS HRR. induction Bs as [|B Bs IH]; intros st pos HB HX HS HK; cbn [sg_mini].
  - exists st, pos. split; [reflexivity|]. split; [reflexivity|exact HK].
  - apply Forall_cons_iff in HX, HS, HB. destruct HX as [HX HX']. destruct HS as [HS HS']. destruct HB as [HB HB'].
    destruct (mini_moved bm R B st HB HRS HX HS HRR HK) as [st1 [E1 [E2 E3]]]. rewrite E1. cbn [bind fst snd].
    destruct (IH st1 (pos + b)%Z HB' HX' HS' E3) as [st' [pos' [F1 [F2 F3]]]].
    exists st', pos'. split; [exact F1|]. split; [|exact F3]. cbn [walk]. exists st1. auto.
Qed.
End modes.

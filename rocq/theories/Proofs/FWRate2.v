(** The duality gap: hinge function, bounds, convexity; the rate of batch Frank-Wolfe. *)
From Verif Require Import Proofs.Arrays Proofs.LossProofs Proofs.CRFProofs Proofs.LearnerProofs
  Proofs.UnstructuredProofs2 Proofs.QPProofs Proofs.OneSlackProofs Proofs.OneSlackProofs2 Model.FrankWolfe Spec.FWRateSpec
  Proofs.FrankWolfeProofs Proofs.FrankWolfeProofs2 Proofs.FrankWolfeProofs3 Proofs.FrankWolfeProofs4 Proofs.FWRate.
Notation mix := FrankWolfe.mix.

Section rate.
  Context {X Y : Type} (T : task X Y) (d : nat) (C : Qc) (Xs : list X) (Ys : list Y) (bm : bmodel X Y) (R L : Qc).
  Notation SS := (combine Xs Ys). Notation n := (ofN (length Xs)).
  Hypothesis HN : (0 < length Xs)%nat.
  Hypothesis HC : 0 <= C.
  Hypothesis HU : fw_usable T d Xs Ys bm.
  Hypothesis HE : batch_exact bm T d Xs Ys.
  Hypothesis HB : bounded T R L SS.
  Notation D w l := (dual_objective C (length Xs) w l).

  Definition Hf (w : list Qc) : list Qc := match bm_laug bm Xs Ys w with Ok Yh => margins T w Xs Ys Yh | Err _ => [] end.
  Lemma good' : good T d Xs Ys. Proof. exact (HG T d Xs Ys bm HU). Qed.
  Lemma sized' : Forall (sized T d) SS. Proof. apply good_sized, good'. Qed.
  Lemma LS' : length SS = length Xs. Proof. exact (LSS T d Xs Ys bm HU). Qed.
  Lemma HR0 : 0 <= R. Proof. apply HB. Qed.
  Lemma HL0 : 0 <= L. Proof. apply HB. Qed.
  Lemma Hf_hinges w : length w = d -> hinges T w SS (Hf w).
  Proof. intro Hw. destruct (exact_hinges T d Xs Ys bm w good' HE Hw) as [Yh [EY [_ HH]]]. unfold Hf. rewrite EY. exact HH. Qed.
  Lemma Hf_unique w hs : length w = d -> hinges T w SS hs -> hs = Hf w.
  Proof. intros Hw HH. eapply hinges_unique; eauto. apply Hf_hinges; auto. Qed.
  Lemma Hf_length w : length w = d -> length (Hf w) = length Xs.
  Proof. intro Hw. rewrite <- LS'. symmetry. eapply Forall2_len. apply (Hf_hinges w Hw). Qed.
  Lemma feat_bound p : In p SS -> forall y', t_label T (fst p) y' -> normsq (vsub (t_feat T (fst p) (snd p)) (t_feat T (fst p) y')) <= R * R.
  Proof. intros Hp y' Hy. apply HB; auto. Qed.
  Lemma hinge_at w i p : length w = d -> nth_error SS i = Some p -> is_hinge T w (fst p) (snd p) (get1 (Hf w) i).
  Proof.
    intros Hw Hp. assert (HH := Hf_hinges w Hw). unfold hinges in HH. revert Hp. generalize (Hf w) HH. generalize SS. intros S hs H. revert i. induction H as [|q h S hs Hq HF IH]; intros [|i] E; cbn [nth_error] in E; try discriminate.
    - injection E as <-. exact Hq.
    - change (get1 (h :: hs) (Datatypes.S i)) with (get1 hs i). apply IH. auto.
  Qed.
  Lemma nth_SS i : (i < length Xs)%nat -> exists p, nth_error SS i = Some p /\ In p SS /\ sized T d p.
  Proof.
    intro Hi. destruct (nth_error SS i) as [p|] eqn:E. 2:{ apply nth_error_None in E. rewrite LS' in E. lia. }
    assert (I := nth_error_In _ _ E). exists p. split; auto. split; auto. assert (Q := sized'). rewrite Forall_forall in Q. auto.
  Qed.
  Lemma Hf_lip w w' r i : length w = d -> length w' = d -> 0 <= r -> normsq (vsub w' w) <= r * r -> (i < length Xs)%nat -> get1 (Hf w') i <= get1 (Hf w) i + r * R.
  Proof.
    intros Hw Hw' Hr Hd Hi. destruct (nth_SS i Hi) as [p [E [I S]]]. eapply (hinge_lipschitz T d R p w w'); eauto using hinge_at, HR0. apply feat_bound; auto.
  Qed.
  Lemma Hf_sum_lip w w' r : length w = d -> length w' = d -> 0 <= r -> normsq (vsub w' w) <= r * r -> lsum (Hf w') <= lsum (Hf w) + n * (r * R).
  Proof.
    intros Hw Hw' Hr Hd. rewrite !lsum_get, !Hf_length by auto. rewrite <- (sumn_const (length Xs) (r * R)), <- sumn_plus. apply sumn_le. intros i Hi. apply Hf_lip; auto.
  Qed.
  Lemma Hf_zero : lsum (Hf (vzero d)) <= n * L.
  Proof.
    assert (LZ := vzero_length d). rewrite lsum_get, Hf_length by auto. rewrite <- (sumn_const (length Xs) L). apply sumn_le. intros i Hi. destruct (nth_SS i Hi) as [p [E [I S]]].
    eapply (hinge_at_zero T d L p); eauto using hinge_at. intros y' Hy. apply HB; auto.
  Qed.
  Lemma Hf_nonneg w : length w = d -> 0 <= lsum (Hf w).
  Proof.
    intros Hw. rewrite lsum_get, Hf_length by auto. apply sumn_nonneg. intros i Hi. destruct (nth_SS i Hi) as [p [E [I S]]]. eapply (hinge_nonneg T d p w); eauto using hinge_at.
  Qed.
  Lemma Hf_convex g a b : 0 <= g -> g <= 1 -> length a = d -> length b = d -> lsum (Hf (vmix g a b)) <= mix g (lsum (Hf a)) (lsum (Hf b)).
  Proof.
    intros G0 G1 Ha Hb. assert (Hm : length (vmix g a b) = d) by (rewrite vmix_length; congruence). rewrite !lsum_get, !Hf_length by auto. unfold mix.
    rewrite <- !sumn_mult_l, <- sumn_plus. apply sumn_le. intros i Hi. destruct (nth_SS i Hi) as [p [E [I S]]]. eapply (hinge_convex T p g a b); eauto using hinge_at. congruence.
  Qed.

  (** primal objective and duality gap *)
  Definition prim (w : list Qc) : Qc := primal_value C w (Hf w).
  Definition dgap (w : list Qc) (l : Qc) : Qc := prim w - D w l.
  Lemma dgap_eq w l : dgap w l = normsq w - C * n * l + C * lsum (Hf w).
  Proof. unfold dgap, prim, primal_value, dual_objective. set (a := normsq w). set (b := lsum _). set (z := n). clearbody a b z. field. discriminate. Qed.
  Lemma dgap_convex g a b l m : 0 <= g -> g <= 1 -> length a = d -> length b = d -> dgap (vmix g a b) (mix g l m) <= mix g (dgap a l) (dgap b m).
  Proof.
    intros G0 G1 Ha Hb. rewrite !dgap_eq. assert (A := normsq_vmix g a b ltac:(congruence) G0 G1). assert (B := mult_le_l C _ _ HC (Hf_convex g a b G0 G1 Ha Hb)).
    unfold mix in *. set (x := normsq (vmix g a b)) in *. set (y := C * lsum (Hf (vmix g a b))) in *. set (na := normsq a) in *. set (nb := normsq b) in *. set (ha := lsum (Hf a)) in *. set (hb := lsum (Hf b)) in *. set (z := n) in *. clearbody x y na nb ha hb z.
    apply Qcle_trans with ((1 - g) * na + g * nb - C * z * ((1 - g) * l + g * m) + C * ((1 - g) * ha + g * hb)).
    - set (u := (1 - g) * na + g * nb) in *. set (v := C * ((1 - g) * ha + g * hb)) in *. set (t := C * z * _) in *. clearbody u v t. qclra.
    - apply Qceq_le. ring.
  Qed.
  Lemma weak w l w' : dual_feasible T d C SS w l -> length w' = d -> D w l <= prim w'.
  Proof. intros HF Hw. rewrite <- LS'. apply (fw_weak T d); auto. rewrite LS'; auto. apply sized'. apply Hf_hinges; auto. Qed.
  Lemma dgap_nonneg w l : dual_feasible T d C SS w l -> 0 <= dgap w l.
  Proof. intro HF. assert (Q := weak w l w HF (feasible_length _ _ _ _ _ _ sized' HF)). unfold dgap. set (a := prim w) in *. set (b := D w l) in *. clearbody a b. qclra. Qed.
  (** the dual value also bounds the distance *)
  Lemma weak_dist w l w' : dual_feasible T d C SS w l -> length w' = d -> D w l + normsq (vsub w w') / (1 + 1) <= prim w'.
  Proof.
    intros HF Hw. assert (LW := feasible_length _ _ _ _ _ _ sized' HF). destruct HF as [bs [HBS [Ew El]]].
    assert (B := blocks_bound T d C (length SS) w' ltac:(rewrite LS'; auto) HC SS bs (Hf w') sized' HBS (Hf_hinges w' Hw)). rewrite <- Ew, <- El, LS' in B.
    unfold prim, primal_value, dual_objective. unfold normsq at 2. rewrite dot_vsub_l, !dot_vsub_r by congruence. fold (normsq w) (normsq w'). rewrite (dot_comm w w').
    set (a := normsq w) in *. set (b := normsq w') in *. set (e := dot w' w) in *. set (k := C * n * l) in *. set (h := C * lsum (Hf w')) in *. clearbody a b e k h.
    replace (k - a / (1 + 1) + (a - e - (e - b)) / (1 + 1)) with (k - e + b / (1 + 1)) by (field; discriminate). set (y := b / (1 + 1)) in *. clearbody y. qclra.
  Qed.
  Notation rad := (C * n * R).
  Lemma rad_nonneg : 0 <= rad. Proof. apply Qcmult_nonneg; [apply Qcmult_nonneg; auto; apply ofN_nonneg|apply HR0]. Qed.
  Lemma CR_nonneg : 0 <= C * R. Proof. apply Qcmult_nonneg; [auto|apply HR0]. Qed.
  Lemma feasible_norm w l : dual_feasible T d C SS w l -> normsq w <= rad * rad.
  Proof.
    intros [bs [HBS [-> _]]]. destruct (norm_vsum d (map fst bs) (map (fun _ => C * R) bs)) as [_ Q].
    { assert (S := sized'). assert (FB := feat_bound). revert HBS S FB. generalize (length SS). generalize SS. intros S m HBS HS FB. induction HBS as [|p b S bs Hb HBS IH]; cbn [map]; constructor.
      - apply Forall_cons_iff in HS. destruct HS as [Hp HS]. split; [eapply block_length; eauto|]. split; [apply CR_nonneg|]. eapply block_norm; eauto using HR0. apply FB. left; auto.
      - apply Forall_cons_iff in HS. apply IH; [tauto|]. intros q Hq. apply FB. right; auto. }
    assert (E : lsum (map (fun _ : list Qc * Qc => C * R) bs) = rad).
    { rewrite <- LS'. rewrite (Forall2_len _ _ _ HBS). clear. induction bs as [|b bs IH]; cbn [map lsum length]; [rewrite ofN_0; ring|]. rewrite IH, ofN_S. ring. }
    rewrite E in Q. exact Q.
  Qed.
  Lemma feasible_value w l : dual_feasible T d C SS w l -> 0 <= l.
  Proof.
    intros [bs [HBS [_ ->]]]. assert (PL : (0 < length SS)%nat) by (rewrite LS'; auto). revert HBS PL. generalize (length SS). assert (FB : forall p y', In p SS -> t_label T (fst p) y' -> 0 <= t_loss T (snd p) y') by (intros; apply HB; auto).
    revert FB. generalize SS. intros S FB m HBS PL. induction HBS as [|p b S bs Hb HBS IH]; cbn [map lsum]; [apply Qcle_refl|].
    assert (A : 0 <= snd b) by (eapply block_value; eauto; intros; apply FB; auto; left; auto). assert (B : 0 <= lsum (map snd bs)) by (apply IH; intros; apply FB; auto; right; auto).
    set (u := snd b) in *. set (v := lsum _) in *. clearbody u v. qclra.
  Qed.
  Lemma dist_feasible w l w' l' : dual_feasible T d C SS w l -> dual_feasible T d C SS w' l' -> normsq (vsub w w') <= (rad + rad) * (rad + rad).
  Proof.
    intros H1 H2. apply norm_sub_le; eauto using rad_nonneg, feasible_norm. rewrite (feasible_length _ _ _ _ _ _ sized' H1), (feasible_length _ _ _ _ _ _ sized' H2). reflexivity.
  Qed.
  Lemma prim_zero : prim (vzero d) <= C * n * L.
  Proof.
    unfold prim, primal_value. unfold normsq. rewrite dot_vzero_l. assert (Q := mult_le_l C _ _ HC Hf_zero). replace (C * n * L) with (C * (n * L)) by ring.
    replace (0 / (1 + 1)) with 0 by (unfold Qcdiv; ring). set (a := C * lsum _) in *. set (b := C * (n * L)) in *. clearbody a b. qclra.
  Qed.
  Lemma dual_le w l : dual_feasible T d C SS w l -> D w l <= C * n * L.
  Proof. intro HF. eapply Qcle_trans; [apply (weak w l (vzero d)); auto; apply vzero_length|apply prim_zero]. Qed.
  Lemma dgap_worst w l : dual_feasible T d C SS w l -> dgap w l <= worst_gap (length Xs) C R L.
  Proof.
    intro HF. assert (Hw := feasible_length _ _ _ _ _ _ sized' HF). rewrite dgap_eq. unfold worst_gap. assert (A := feasible_norm w l HF). assert (B := feasible_value w l HF).
    assert (V : vsub w (vzero d) = w). { apply vec_ext. rewrite vsub_length; auto. rewrite vzero_length; auto. intros i _. rewrite get1_vsub, get1_vzero by (rewrite vzero_length; auto). ring. }
    assert (Q := Hf_sum_lip (vzero d) w rad (vzero_length d) Hw rad_nonneg). rewrite V in Q. specialize (Q A). assert (Z := Hf_zero).
    assert (Q1 : C * lsum (Hf w) <= C * (n * L + n * (rad * R))). { apply mult_le_l; auto. eapply Qcle_trans; [exact Q|]. apply Qcplus_le_compat; [exact Z|apply Qcle_refl]. }
    assert (Q2 : 0 <= C * n * l). { apply Qcmult_nonneg; auto. apply Qcmult_nonneg; auto. apply ofN_nonneg. }
    apply Qcle_trans with (rad * rad + C * (n * L + n * (rad * R))).
    - set (a := normsq w) in *. set (b := rad * rad) in *. set (c := C * lsum (Hf w)) in *. set (e := C * n * l) in *. set (f := C * (_ + _)) in *. clearbody a b c e f. qclra.
    - apply Qceq_le. ring.
  Qed.
  Lemma worst_nonneg : 0 <= worst_gap (length Xs) C R L.
  Proof. eapply Qcle_trans; [apply (dgap_nonneg (vzero d) 0)|apply dgap_worst]; apply (zero_feasible T d (FWParams C 0 0 false true 1 true) Xs Ys bm HU). Qed.
  (** the primal objective changes slowly *)
  Lemma prim_move w l w' r : dual_feasible T d C SS w l -> length w' = d -> 0 <= r -> normsq (vsub w' w) <= r * r ->
    prim w' <= prim w + ((1 + 1) * (C * R) * (n * r) + r * r / (1 + 1)).
  Proof.
    intros HF Hw' Hr Hd. assert (Hw := feasible_length _ _ _ _ _ _ sized' HF). unfold prim, primal_value.
    assert (Q := mult_le_l C _ _ HC (Hf_sum_lip w w' r Hw Hw' Hr Hd)).
    assert (P : dot w (vsub w' w) <= rad * r). { apply dot_le; auto using rad_nonneg. rewrite vsub_length; congruence. eapply feasible_norm; eauto. }
    assert (E : normsq w' = normsq w + (1 + 1) * dot w (vsub w' w) + normsq (vsub w' w)).
    { unfold normsq. rewrite dot_vsub_l, !dot_vsub_r by congruence. rewrite (dot_comm w' w). ring. }
    rewrite E. set (a := normsq w) in *. set (b := dot w (vsub w' w)) in *. set (e := normsq (vsub w' w)) in *. set (h := lsum (Hf w)) in *. set (h' := C * lsum (Hf w')) in *. set (z := n) in *. clearbody a b e h h' z.
    replace ((a + (1 + 1) * b + e) / (1 + 1)) with (a / (1 + 1) + b + e / (1 + 1)) by (field; discriminate).
    assert (E2 : e / (1 + 1) <= r * r / (1 + 1)). { unfold Qcdiv. apply Qcmult_le_compat_r; auto. discriminate. }
    replace ((1 + 1) * (C * R) * (z * r)) with (C * (z * (r * R)) + C * z * R * r) by ring. replace (C * (h + z * (r * R))) with (C * h + C * (z * (r * R))) in Q by ring.
    set (t1 := C * (z * (r * R))) in *. set (t2 := C * z * R * r) in *. set (t3 := C * h) in *. set (t4 := a / (1 + 1)) in *. set (t5 := e / (1 + 1)) in *. set (t6 := r * r / (1 + 1)) in *. clearbody t1 t2 t3 t4 t5 t6. qclra.
  Qed.
End rate.

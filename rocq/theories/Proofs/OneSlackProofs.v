From Verif Require Import Model.OneSlack Spec.OneSlackSpec Proofs.Arrays Proofs.LossProofs Proofs.MaxProdProofs Proofs.CRFProofs Proofs.LearnerProofs
  Proofs.QPProofs Proofs.QPProofs2 Proofs.NSlackProofs Proofs.NSlackProofs2 Proofs.NSlackProofs4 Proofs.NSlackProofs5 Proofs.OneSlackQP Proofs.OneSlackPrune Proofs.OneSlackCache.

Lemma sum_features_ok d fs : Forall (fun f => length f = d) fs -> forall acc, length acc = d ->
  sum_features acc (map Ok fs) = Ok (vadd acc (fold_right vadd (vzero d) fs)).
Proof.
  induction 1 as [|f fs Hf HF IH]; intros acc Ha; cbn [map sum_features fold_right].
  - f_equal. apply vec_ext. { rewrite vadd_length; rewrite ?vzero_length; auto. }
    intros i _. rewrite get1_vadd by (rewrite vzero_length; auto). rewrite get1_vzero. ring.
  - assert (LF : length (fold_right vadd (vzero d) fs) = d).
    { clear - HF. induction HF; cbn [fold_right]. apply vzero_length. rewrite vadd_length; congruence. }
    cbn [bind]. unfold np_vadd. rewrite Ha, Hf, Nat.eqb_refl. cbn [bind]. rewrite IH by (rewrite vadd_length; congruence).
    f_equal. apply vec_ext. { repeat rewrite vadd_length; rewrite ?vadd_length; congruence. }
    intros i _. repeat rewrite get1_vadd; rewrite ?vadd_length; try congruence. ring.
Qed.
Lemma fold_vadd_length d fs : Forall (fun f => length f = d) fs -> length (fold_right vadd (vzero d) fs) = d.
Proof. induction 1; cbn [fold_right]. apply vzero_length. rewrite vadd_length; congruence. Qed.
Lemma vadd_vzero_l d v : length v = d -> vadd (vzero d) v = v.
Proof.
  intro H. apply vec_ext. { rewrite vadd_length; rewrite vzero_length; auto. }
  intros i _. rewrite get1_vadd by (rewrite vzero_length; auto). rewrite get1_vzero. ring.
Qed.

(** the sample is well formed *)
Definition good {X Y} (T : task X Y) (d : nat) (Xs : list X) (Ys : list Y) : Prop :=
  length Xs = length Ys /\ forall p, In p (combine Xs Ys) -> t_label T (fst p) (snd p) /\ t_loss T (snd p) (snd p) = 0 /\
    forall y', t_label T (fst p) y' -> length (t_feat T (fst p) y') = d.
Definition margins {X Y} (T : task X Y) (w : list Qc) (Xs : list X) (Ys Yh : list Y) : list Qc :=
  map (fun q => margin T w (fst (fst q)) (snd (fst q)) (snd q)) (combine (combine Xs Ys) Yh).

Lemma good_cons {X Y} (T : task X Y) d x xs y ys : good T d (x :: xs) (y :: ys) -> good T d xs ys.
Proof. intros [L H]. split. { cbn [length] in L. lia. } intros p Hp. apply H. cbn [combine]. right. auto. Qed.
Lemma feat_len {X Y} (T : task X Y) d Xs : forall Ys Yh, good T d Xs Ys -> labelling T Xs Yh ->
  Forall (fun f => length f = d) (map (fun p => t_feat T (fst p) (snd p)) (combine Xs Yh)).
Proof.
  induction Xs as [|x xs IH]; intros [|y ys] Yh G H; inversion H; subst; cbn [combine map]; try (constructor; fail).
  - destruct G as [L _]. discriminate.
  - constructor.
    + destruct G as [_ G]. destruct (G (x, y) (or_introl eq_refl)) as [_ [_ G']]. apply G'. auto.
    + eapply IH; eauto. eapply good_cons; eauto.
Qed.
Lemma feat_sum_length {X Y} (T : task X Y) d Xs Ys Yh : good T d Xs Ys -> labelling T Xs Yh -> length (feat_sum T d Xs Yh) = d.
Proof. intros. apply fold_vadd_length. eapply feat_len; eauto. Qed.
Lemma good_label {X Y} (T : task X Y) d Xs : forall Ys, good T d Xs Ys -> labelling T Xs Ys.
Proof.
  induction Xs as [|x xs IH]; intros [|y ys] G; try (destruct G as [L _]; discriminate); constructor.
  - destruct G as [_ G]. apply (G (x, y) (or_introl eq_refl)).
  - apply IH. eapply good_cons; eauto.
Qed.
Lemma sum_margins {X Y} (T : task X Y) d w Xs : length w = d -> forall Ys Yh, good T d Xs Ys -> labelling T Xs Yh ->
  loss_sum T Ys Yh - (dot w (feat_sum T d Xs Ys) - dot w (feat_sum T d Xs Yh)) = lsum (margins T w Xs Ys Yh).
Proof.
  intro Hw. induction Xs as [|x xs IH]; intros [|y ys] Yh G H; inversion H; subst; try (destruct G as [L _]; discriminate).
  - unfold loss_sum, margins, feat_sum. cbn [combine map lsum fold_right]. ring.
  - assert (G' := good_cons _ _ _ _ _ _ G). assert (LA := good_label _ _ _ _ G'). assert (GL := good_label _ _ _ _ G).
    unfold loss_sum, margins. cbn [combine map lsum fst snd]. fold (margins T w xs ys l'). fold (loss_sum T ys l').
    rewrite <- IH by auto. unfold feat_sum. cbn [combine map fold_right fst snd]. fold (feat_sum T (length w) xs ys). fold (feat_sum T (length w) xs l').
    destruct G as [_ G]. destruct (G (x, y) (or_introl eq_refl)) as [G1 [_ G2]]. cbn [fst snd] in *.
    rewrite !dot_vadd_r.
    + unfold margin. ring.
    + rewrite (feat_sum_length T _ xs ys l') by auto. apply G2. auto.
    + rewrite (feat_sum_length T _ xs ys ys) by auto. apply G2. auto.
Qed.
Lemma ofN_neq0 n : (0 < n)%nat -> ofN n <> 0.
Proof. intros H E. assert (P := ofN_pos n H). rewrite E in P. discriminate. Qed.

Section one.
Context {X Y : Type} (T : task X Y) (d : nat) (Xs : list X) (Ys : list Y).
Hypothesis G : good T d Xs Ys.
Hypothesis HN : (0 < length Xs)%nat.
Let n := length Xs.
Let SS := combine Xs Ys.

Lemma fl Yh : labelling T Xs Yh -> length (feat_sum T d Xs Yh) = d.
Proof. apply (feat_sum_length T d Xs Ys). exact G. Qed.
Lemma gt_len : length (feat_sum T d Xs Ys) = d.
Proof. apply fl. eapply good_label; eauto. Qed.
Lemma con_length Yh c : mean_con T d Xs Ys Yh c -> length (fst c) = d.
Proof.
  intros [L [E _]]. rewrite E, vscale_length, vsub_length; rewrite gt_len; auto. rewrite fl; auto.
Qed.
Lemma con_violation w Yh c : length w = d -> mean_con T d Xs Ys Yh c -> violation w c = lsum (margins T w Xs Ys Yh) / ofN n.
Proof.
  intros Hw [L [E1 E2]]. unfold violation. rewrite E1, E2, <- (sum_margins T d) by auto. rewrite dot_vscale_r.
  rewrite dot_vsub_r by (rewrite gt_len, fl; auto). fold n.
  set (a := loss_sum T Ys Yh). set (b := dot w (feat_sum T d Xs Ys)). set (e := dot w (feat_sum T d Xs Yh)).
  assert (NZ := ofN_neq0 n HN). set (z := ofN n) in *. clearbody a b e z. field. exact NZ.
Qed.
Lemma margins_le w (Yh : list Y) hs : labelling T Xs Yh -> hinges T w SS hs -> lsum (margins T w Xs Ys Yh) <= lsum hs.
Proof.
  unfold hinges, SS. clear - G. destruct G as [L _]. clear G. revert Ys Yh hs L. induction Xs as [|x xs IH]; intros [|y ys] Yh hs L HL HH; try discriminate.
  - inversion HL; subst. inversion HH; subst. apply Qcle_refl.
  - inversion HL; subst. inversion HH; subst. unfold margins. cbn [combine map lsum fst snd].
    cbn [length] in L. injection L as L. match goal with H : is_hinge _ _ _ _ _ |- _ => destruct H as [_ B] end. cbn [fst snd] in *.
    apply Qcplus_le_compat; auto. apply IH; auto.
Qed.
Lemma con_bound w c Yh hs : length w = d -> mean_con T d Xs Ys Yh c -> hinges T w SS hs -> violation w c <= lsum hs / ofN n.
Proof.
  intros Hw HM HH. rewrite (con_violation w Yh c) by auto. unfold Qcdiv. apply Qcmult_le_compat_r.
  - apply margins_le; auto. apply HM.
  - apply Qclt_le_weak, Qcinv_pos, ofN_pos. exact HN.
Qed.
Lemma mean_primal C w hs : C * ofN n * (lsum hs / ofN n) + normsq w / (1 + 1) = primal_value C w hs.
Proof.
  unfold primal_value. f_equal. assert (NZ := ofN_neq0 n HN). set (z := ofN n) in *. set (a := lsum hs). clearbody z a. field. exact NZ.
Qed.
Lemma gt_con : mean_con T d Xs Ys Ys (vzero d, 0).
Proof.
  split; [eapply good_label; eauto|]. cbn [fst snd]. split.
  - assert (LF := feat_sum_length T d Xs Ys Ys G (good_label _ _ _ _ G)). apply vec_ext.
    { rewrite vscale_length, vsub_length, vzero_length; auto. }
    intros i _. rewrite get1_vscale, get1_vsub, get1_vzero by auto. ring.
  - assert (Z : loss_sum T Ys Ys = 0).
    { unfold loss_sum. destruct G as [L G']. clear - L G'. revert Ys L G'. induction Xs as [|x xs IH]; intros [|y ys] L G'; try discriminate; auto.
      cbn [combine map lsum fst snd]. rewrite IH.
      - destruct (G' (x, y) (or_introl eq_refl)) as [_ [Z _]]. cbn [snd] in Z. rewrite Z. ring.
      - cbn [length] in L. lia.
      - intros p Hp. apply G'. right. auto. }
    rewrite Z. unfold Qcdiv. ring.
Qed.

(** ** cached results *)
Definition cache_valid (c : option (icache Y)) : Prop :=
  match c with None => True | Some l => Forall2 (fun p s => Forall (valid_entry T p) s) SS l end.
(** attributes left by earlier fits that do not disturb a new one *)
Definition start_ok (ws : warm Y) : Prop :=
  match ws with Cold => True | Soft a => cache_valid (oa_icache a) | Warm a => resumable T d Xs Ys a end.
Lemma F2_impl {A B} (P Q : A -> B -> Prop) l r : (forall a b, P a b -> Q a b) -> Forall2 P l r -> Forall2 Q l r.
Proof. intros H. induction 1; constructor; auto. Qed.
Lemma mean_diff_ok a b : length a = length b -> mean_diff a b n = Ok (vscale (/ ofN n) (vsub a b)).
Proof.
  intro H. unfold mean_diff, np_vsub. rewrite H, Nat.eqb_refl. cbn [bind]. fold n in HN. rewrite (proj2 (Nat.eqb_neq n 0)) by lia. reflexivity.
Qed.
Lemma best_entries w cache best : Forall2 (fun p s => Forall (valid_entry T p) s) SS cache -> mapM (best_entry w) cache = Ok best ->
  Forall2 (fun p c => valid_entry T p c) SS best.
Proof.
  intros HV HM. apply mapM_Forall2 in HM. clear - HV HM. revert best HM. induction HV as [|p s l r HP HV IH]; intros best HM; inversion HM; subst; constructor; auto.
  match goal with H : best_entry _ _ = Ok _ |- _ => apply best_entry_spec in H; destruct H as [H _]; rewrite Forall_forall in HP; auto end.
Qed.
Lemma entries_sums : forall best, Forall2 (fun p c => valid_entry T p c) SS best ->
  let Yh := map (fun c => snd c) best in labelling T Xs Yh /\
  map (fun c => fst (fst c)) best = map (fun p => t_feat T (fst p) (snd p)) (combine Xs Yh) /\
  map (fun c => snd (fst c)) best = map (fun p => t_loss T (fst p) (snd p)) (combine Ys Yh).
Proof.
  unfold SS. destruct G as [L _]. clear - L. revert Ys L. induction Xs as [|x xs IH]; intros [|y ys] L best H; try discriminate.
  - inversion H; subst. cbn. repeat split. constructor.
  - inversion H; subst. cbn [length] in L. injection L as L. destruct (IH ys L _ H4) as [A1 [A2 A3]]. destruct H2 as [B1 [B2 B3]]. cbn [fst snd] in *.
    cbn [map combine fst snd]. split; [constructor; auto|]. rewrite A2, A3, B2, B3. auto.
Qed.

Section run.
Context (ceq : Y -> Y -> res bool) (solve : qp_solver) (prm : os_params).
Hypothesis HC : 0 <= o_C prm.
Let gt := feat_sum T d Xs Ys.

Lemma from_cache_con (m : smodel X Y) st c : sm_size m = d -> cache_valid (o_icache st) -> from_cache prm m n gt st = Ok (Some c) ->
  exists Yh, mean_con T d Xs Ys Yh c.
Proof.
  intros Hm HV H. unfold from_cache in H. destruct (o_icache st) as [[|s cache]|]; try discriminate.
  cbn [cache_valid] in HV. set (full := s :: cache) in *. clearbody full.
  apply bind_ok in H. destruct H as [p [_ H]]. apply bind_ok in H. destruct H as [o [_ H]].
  match type of H with (if ?b then _ else _) = _ => destruct b; [discriminate|] end.
  apply bind_ok in H. destruct H as [best [EB H]]. assert (V := best_entries _ _ _ HV EB). destruct (entries_sums best V) as [L [F1 F2]].
  set (Yh := map (fun c => snd c) best) in *.
  assert (FL := feat_len T d Xs Ys Yh G L).
  assert (ES : sum_features (vzero (sm_size m)) (map (fun c => Ok (fst (fst c))) best) = Ok (feat_sum T d Xs Yh)).
  { rewrite <- (map_map (fun c => fst (fst c)) Ok), F1, (sum_features_ok d) by (auto; rewrite vzero_length; auto). f_equal. rewrite Hm.
    apply vadd_vzero_l. apply fold_vadd_length. auto. }
  rewrite ES in H. cbn [bind] in H.
  assert (GL := good_label _ _ _ _ G).
  rewrite mean_diff_ok in H by (unfold gt; rewrite gt_len, fl; auto). cbn [bind] in H.
  apply bind_ok in H. destruct H as [dd [_ H]]. apply bind_ok in H. destruct H as [bad [_ H]]. destruct bad; [discriminate|].
  injection H as <-. exists Yh. split; auto. cbn [fst snd]. split; auto. rewrite F2. reflexivity.
Qed.

Lemma find_new_form bm w sl cs r : batch_ok bm T d Xs Ys -> length w = d ->
  find_new prm bm Xs Ys gt w sl cs = Ok r ->
  exists Yh c bad, bm_laug bm Xs Ys w = Ok Yh /\ mean_con T d Xs Ys Yh c /\
    os_check_bad prm (o_break prm) w sl (violation w c) (fst c) (snd c) cs = Ok bad /\ r = if bad then None else Some (Yh, c).
Proof.
  intros [Hm [HL [HO [HB HI]]]] Hw H. unfold find_new in H. destruct (HI w Hw) as [Yh [EY L]]. destruct (HB Yh L) as [EF EL].
  rewrite EY in H. cbn [bind] in H. rewrite EF in H. cbn [bind] in H.
  assert (GL := good_label _ _ _ _ G).
  fold n in H. rewrite mean_diff_ok in H by (unfold gt; rewrite gt_len, fl; auto). cbn [bind] in H.
  rewrite EL in H. cbn [bind] in H. apply bind_ok in H. destruct H as [u [_ H]].
  assert (LL : length (map (fun p => t_loss T (fst p) (snd p)) (combine Ys Yh)) = n).
  { rewrite map_length, combine_length. unfold n. apply Forall2_len in L. lia. }
  rewrite LL in H.
  set (c := (vscale (/ ofN n) (vsub gt (feat_sum T d Xs Yh)), loss_sum T Ys Yh / ofN n)).
  assert (MC : mean_con T d Xs Ys Yh c) by (split; auto).
  exists Yh, c. change (lsum (map (fun p => t_loss T (fst p) (snd p)) (combine Ys Yh)) / ofN n) with (snd c) in H.
  change (vscale (/ ofN n) (vsub gt (feat_sum T d Xs Yh))) with (fst c) in H.
  rewrite np_dot_ok in H by (rewrite (con_length Yh); auto). cbn [bind] in H.
  apply bind_ok in H. destruct H as [bad [EBd H]]. exists bad. split; auto. split; auto. split; auto.
  destruct bad; injection H as <-; reflexivity.
Qed.

Lemma update_sample_valid m x y yh sample s' : implements m T d x y -> sm_rescale m = false -> t_label T x yh ->
  update_sample ceq prm m sample x y yh = Ok s' -> Forall (valid_entry T (x, y)) sample -> Forall (valid_entry T (x, y)) s'.
Proof.
  intros [_ [_ HI]] HR HL H HF. apply update_sample_spec in H. destruct H as [[-> _]|[_ [f [l [Ef [El ->]]]]]]; auto.
  destruct (HI yh HL) as [_ [J1 J2]]. rewrite HR in J1. apply Forall_app. split.
  - destruct (_ <? _)%nat; auto. destruct sample; auto. apply Forall_cons_iff in HF. apply HF.
  - constructor; auto. unfold valid_entry, sm_full_loss in *. cbn [fst snd]. repeat split; congruence.
Qed.
Lemma update_samples_valid m : sm_rescale m = false -> forall (xs : list X) (ys : list Y) cache Yh c',
  (forall p, In p (combine xs ys) -> implements m T d (fst p) (snd p)) -> labelling T xs Yh ->
  update_samples ceq prm m cache xs ys Yh = Ok c' ->
  Forall2 (fun p s => Forall (valid_entry T p) s) (combine xs ys) cache -> Forall2 (fun p s => Forall (valid_entry T p) s) (combine xs ys) c'.
Proof.
  intro HR. induction xs as [|x xs IH]; intros [|y ys] cache Yh c' HI HL H HV.
  - cbn [combine] in *. inversion HV; subst. cbn in H. injection H as <-. exact HV.
  - cbn [combine] in *. inversion HV; subst. cbn in H. injection H as <-. exact HV.
  - cbn [combine] in *. inversion HV; subst. cbn in H. injection H as <-. exact HV.
  - cbn [combine] in *. inversion HV; subst. inversion HL; subst. cbn [update_samples] in H.
    apply bind_ok in H. destruct H as [s' [E1 H]]. apply bind_ok in H. destruct H as [c2 [E2 H]]. injection H as <-.
    constructor.
    + eapply update_sample_valid; [apply (HI (x, y)); simpl; auto|auto| |exact E1|auto]. auto.
    + eapply IH; eauto. intros p Hp. apply HI. right. auto.
Qed.
Lemma update_cache_valid bm cache Yh c' : batch_ok bm T d Xs Ys -> (o_cache prm = O \/ sm_rescale (bm_s bm) = false) -> labelling T Xs Yh ->
  update_cache ceq prm (bm_s bm) cache Xs Ys Yh = Ok c' -> cache_valid cache -> cache_valid c'.
Proof.
  intros [_ [HL [HO _]]] HR HY H HV. unfold update_cache in H. destruct (Nat.eqb_spec (o_cache prm) 0) as [E|E].
  - injection H as <-. exact HV.
  - destruct HR as [HR|HR]; [congruence|]. apply bind_ok in H. destruct H as [c2 [E2 H]]. injection H as <-. cbn.
    eapply update_samples_valid; eauto.
    + intros p Hp. apply (HO p Hp).
    + destruct cache as [c|]; [exact HV|]. apply Forall2_len in HY. rewrite HL in HY. unfold SS. clear - HY HL.
      revert Ys Yh HL HY. induction Xs as [|x xs IH]; intros [|y ys] [|h hs] L1 L2; try discriminate; cbn [combine map]; constructor; auto.
Qed.

(** ** one QP *)
Lemma solve1_inv (cs : list ocon) alphas w obj cs' alphas' :
  solve_1_slack_qp solve prm n cs alphas = Ok (w, obj, cs', alphas') ->
  exists a reg p, (reg = 0 \/ reg = qp_reg) /\ one_slack_problem (o_C prm) (o_neg prm) n (map fst cs) (map snd cs) reg = Ok p /\
    solve p = Some (a, - obj) /\ os_prune prm cs alphas a = Ok (cs', alphas') /\ weights a (map fst cs) = Ok w.
Proof.
  intro H. unfold solve_1_slack_qp in H. apply bind_ok in H. destruct H as [[a o] [ER H]]. apply bind_ok in H. destruct H as [[c1 c2] [EP H]].
  apply bind_ok in H. destruct H as [w0 [EW H]]. cbn [fst snd] in *. injection H as <- <- <- <-.
  unfold run_qp in ER. apply bind_ok in ER. destruct ER as [p [Ep ER]].
  destruct (solve p) as [[a' v]|] eqn:ES.
  - injection ER as <- <-. exists a', 0, p. repeat (split; auto). rewrite ES. f_equal. f_equal. ring.
  - apply bind_ok in ER. destruct ER as [p' [Ep' ER]]. destruct (solve p') as [[a' v]|] eqn:ES'; [|discriminate].
    injection ER as <- <-. exists a', qp_reg, p'. repeat (split; auto). rewrite ES'. f_equal. f_equal. ring.
Qed.

Definition valid_cons (cs : list ocon) : Prop := Forall (fun c => exists Yh, mean_con T d Xs Ys Yh c) cs.
Definition lower (o : Qc) : Prop := forall w' hs, length w' = d -> hinges T w' SS hs -> o <= primal_value (o_C prm) w' hs.
Definition slack_of (st : os_state Y) : Prop := exists v, worst (o_w st) (o_cons st) v /\ o_slack st = Qcmax v 0.
(** [old] are the objective values of earlier fits *)
Variable old : list Qc.
Definition inv (st : os_state Y) : Prop :=
  length (o_w st) = d /\ valid_cons (o_cons st) /\ length (o_cons st) = length (o_alphas st) /\ cache_valid (o_icache st) /\
  (exists new, o_curve st = old ++ new /\ Forall lower new) /\
  (forall o, o_obj st = Some o -> lower o /\ neg_ok (o_neg prm) (o_w st) /\ slack_of st).
Definition gap : Qc := qp_reg * (o_C prm * ofN n * (o_C prm * ofN n)).
Definition near (st : os_state Y) : Prop :=
  o_obj st <> None -> In (vzero d, 0) (o_cons st) ->
  forall w' hs, length w' = d -> hinges T w' SS hs ->
    o_C prm * ofN n * o_slack st + normsq (o_w st) / (1 + 1) <= primal_value (o_C prm) w' hs + gap.

Lemma valid_len cs : valid_cons cs -> Forall (fun c => length (fst c) = d) cs.
Proof. intro H. eapply Forall_impl; [|exact H]. intros c [Yh HM]. eapply con_length; eauto. Qed.
Lemma valid_bound cs w hs : valid_cons cs -> length w = d -> hinges T w SS hs -> forall c, In c cs -> violation w c <= lsum hs / ofN n.
Proof. intros HV Hw HH c Hc. unfold valid_cons in HV. rewrite Forall_forall in HV. destruct (HV c Hc) as [Yh HM]. eapply con_bound; eauto. Qed.

Lemma max_worst w cs s : length w = d -> Forall (fun c => length (fst c) = d) cs ->
  (let! vs := mapM (fun c => let! q := np_dot w (fst c) in Ok (- q + snd c)) cs in np_max vs) = Ok s -> worst w cs s.
Proof.
  intros Hw HF H. rewrite (mapM_ok _ (fun c => - dot w (fst c) + snd c)) in H.
  - cbn [bind] in H. apply np_max_spec in H. destruct H as [I M].
    assert (E : forall c, - dot w (fst c) + snd c = violation w c) by (intro; unfold violation; ring).
    split.
    + apply in_map_iff in I. destruct I as [c [E1 I]]. exists c. split; auto. rewrite <- E. auto.
    + intros c Hc. rewrite <- E. apply M. apply in_map_iff. eauto.
  - intros c Hc. rewrite np_dot_ok; auto. rewrite Forall_forall in HF. rewrite HF; auto.
Qed.

Lemma step_inv st cached c Yh st' : qp_sound solve -> inv st -> mean_con T d Xs Ys Yh c -> os_step solve prm n cached c st = Ok st' ->
  inv st' /\ o_obj st' <> None /\ (qp_exact solve -> o_neg prm = None -> near st').
Proof.
  intros HS [I1 [I2 [I3 [I4 [I5 I6]]]]] HM H. unfold os_step in H.
  apply bind_ok in H. destruct H as [q [_ H]]. apply bind_ok in H. destruct H as [[[[w obj] cs'] al'] [ES H]].
  assert (VC : valid_cons (o_cons st ++ [c])). { apply Forall_app. split; auto. constructor; eauto. }
  set (cs := o_cons st ++ [c]) in *. apply solve1_inv in ES. destruct ES as [a [reg [p [Hr [EP [ESv [EPr EW]]]]]]].
  assert (HF := valid_len _ VC). destruct (HS _ _ _ ESv) as [FE VA].
  destruct (oneslack_weak d _ _ _ _ _ _ a (reg_nonneg reg Hr) HF EP FE) as [w2 [EW2 [Lw [NG WD]]]].
  assert (w2 = w) by congruence. subst w2.
  destruct (os_prune_incl _ _ _ _ _ _ EPr) as [INC LEN].
  assert (VC' : valid_cons cs'). { unfold valid_cons in *. rewrite Forall_forall in *. intros x Hx. apply VC. auto. }
  apply bind_ok in H. destruct H as [vs [EV H]]. apply bind_ok in H. destruct H as [s [EM H]].
  assert (WS : worst w cs' s). { apply max_worst; auto. apply valid_len; auto. rewrite EV. exact EM. }
  injection H as <-.
  assert (LO : lower obj).
  { intros w' hs Hw' HH. rewrite <- mean_primal. replace obj with (- qp_value p a) by (rewrite <- VA; ring).
    apply WD; auto. apply valid_bound; auto. }
  split; [|split].
  - split; [exact Lw|]. split; [exact VC'|]. split; [exact LEN|]. split; [exact I4|]. split.
    + cbn [o_curve]. destruct I5 as [new [-> I5]]. exists (new ++ [obj]). rewrite app_assoc. split; auto. apply Forall_app. split; auto.
    + cbn [o_obj o_w]. intros o E. injection E as <-. split; auto. split; [exact NG|]. exists s. split; auto.
  - discriminate.
  - intros HX HNeg _ HG w' hs Hw' HH. cbn [o_slack o_w o_cons] in *. rewrite HNeg in EP.
    destruct (HX _ _ _ ESv) as [OPT _].
    destruct (oneslack_strong d (o_C prm) n cs reg p a (reg_nonneg reg Hr) HC HF EP OPT) as [w3 [v [EW3 [Wv [_ ND]]]]].
    assert (w3 = w) by congruence. subst w3. specialize (ND w' (lsum hs / ofN n) Hw' (valid_bound _ _ _ VC Hw' HH)).
    rewrite mean_primal in ND.
    assert (SP : 0 <= s). { destruct WS as [_ B]. specialize (B _ HG). unfold violation in B. cbn [fst snd] in B. rewrite dot_vzero_r in B.
      eapply Qcle_trans; [|exact B]. apply Qceq_le. ring. }
    assert (SV : s <= v). { destruct WS as [[c0 [C1 C2]] _]. rewrite <- C2. apply Wv. auto. }
    assert (MX : Qcmax s 0 <= v). { apply Qcmax_lub; auto. eapply Qcle_trans; eauto. }
    assert (RR : reg * (o_C prm * ofN n * (o_C prm * ofN n)) <= gap).
    { unfold gap. apply Qcmult_le_compat_r. destruct Hr as [->| ->]; [apply qp_reg_nonneg|apply Qcle_refl]. apply Qc_sq_nonneg. }
    assert (P := Qcmult_le_compat_r _ _ (o_C prm * ofN n) MX (Cn_nonneg _ n HC)).
    rewrite (Qcmult_comm (o_C prm * ofN n) (Qcmax s 0)). rewrite (Qcmult_comm (o_C prm * ofN n) v) in ND.
    set (x1 := Qcmax s 0 * (o_C prm * ofN n)) in *. set (x2 := v * (o_C prm * ofN n)) in *. set (x3 := gap) in *.
    set (x4 := reg * (o_C prm * ofN n * (o_C prm * ofN n))) in *. clearbody x1 x2 x3 x4. qclra.
Qed.

Definition model_ok (bm : bmodel X Y) : Prop := batch_ok bm T d Xs Ys /\ (o_cache prm = O \/ sm_rescale (bm_s bm) = false).
Lemma loop_inv k : qp_sound solve -> forall bm sw st st' reason bm', model_ok bm -> (forall b, sw = Some b -> model_ok b) ->
  inv st -> (qp_exact solve -> o_neg prm = None -> near st) ->
  os_loop ceq solve prm Xs Ys gt k bm sw st = Ok (st', reason, bm') ->
  inv st' /\ (qp_exact solve -> o_neg prm = None -> near st') /\ (bm' = bm \/ sw = Some bm') /\
  (reason = OSNoConstraint -> find_new prm bm' Xs Ys gt (o_w st') (o_slack st') (o_cons st') = Ok None).
Proof.
  intro HS. induction k as [|k IH]; intros bm sw st st' reason bm' HB HSW HI HNr H; cbn [os_loop] in H.
  { injection H as <- <- <-. repeat (split; auto). discriminate. }
  apply bind_ok in H. destruct H as [oc [EC H]]. destruct oc as [c|].
  - apply bind_ok in H. destruct H as [st1 [E1 H]]. destruct HB as [HB1 HB2].
    destruct (from_cache_con (bm_s bm) st c) as [Yh HM]; auto. { apply HB1. } { apply HI. }
    destruct (step_inv st true c Yh st1 HS HI HM E1) as [A1 [A2 A3]].
    eapply IH; eauto. split; auto.
  - apply bind_ok in H. destruct H as [r [EF H]]. assert (EF0 := EF).
    assert (Hw : length (o_w st) = d) by apply HI.
    destruct (find_new_form bm _ _ _ _ (proj1 HB) Hw EF) as [Yh [c [bad [EY [HM [EBd Er]]]]]].
    destruct bad; subst r.
    + destruct sw as [b|].
      * destruct (IH b None st st' reason bm') as [A1 [A2 [A3 A4]]]; auto. discriminate. split; auto. split; auto. split; auto.
        destruct A3 as [->|A3]; [auto|discriminate].
      * injection H as <- <- <-. split; auto.
    + apply bind_ok in H. destruct H as [cache [EU H]]. apply bind_ok in H. destruct H as [st1 [E1 H]].
      destruct HB as [HB1 HB2].
      assert (CV := update_cache_valid bm _ _ _ HB1 HB2 (proj1 HM) EU ltac:(apply HI)).
      match type of E1 with os_step _ _ _ _ _ ?s = _ => set (st0 := s) in * end.
      assert (HI0 : inv st0). { destruct HI as [J1 [J2 [J3 [J4 [J5 J6]]]]]. repeat (split; auto). }
      destruct (step_inv st0 false c Yh st1 HS HI0 HM E1) as [A1 [A2 A3]].
      eapply IH; eauto. split; auto.
Qed.

Lemma start_inv ws : start_ok ws -> (forall a, ws = Soft a \/ ws = Warm a -> old = oa_curve a) -> (ws = Cold -> old = []) ->
  exists st, os_start prm d ws = Ok st /\ inv st /\ near st.
Proof.
  intros HW HO HO0. destruct ws as [|a|a].
  - eexists. split; [reflexivity|]. split.
    + split; [apply vzero_length|]. split. { constructor; [|constructor]. exists Ys. apply gt_con. }
      split; [reflexivity|]. split; [exact I|]. split; [exists []; rewrite (HO0 eq_refl); split; [reflexivity|constructor]|]. discriminate.
    + intro H. exfalso. apply H. reflexivity.
  - eexists. split; [reflexivity|]. split.
    + split; [apply vzero_length|]. split. { constructor; [|constructor]. exists Ys. apply gt_con. }
      split; [reflexivity|]. split; [exact HW|]. split; [exists []; rewrite (HO a (or_introl eq_refl)); rewrite app_nil_r; split; [reflexivity|constructor]|]. discriminate.
    + intro H. exfalso. apply H. reflexivity.
  - destruct HW as [cs [W1 [W2 [W3 [W4 [W5 [W6 W7]]]]]]]. cbn [os_start]. rewrite W1. eexists. split; [reflexivity|]. split.
    + split; [exact W4|]. split; [exact W5|]. split; [exact W3|]. split.
      { cbn [o_icache]. unfold cache_valid. destruct (oa_icache a); [|exact I]. destruct W7 as [W7 _]. eapply F2_impl; [|exact W7]. intros p s0 [_ Q]. exact Q. }
      split; [exists []; rewrite (HO a (or_intror eq_refl)); rewrite app_nil_r; split; [reflexivity|constructor]|]. discriminate.
    + intro H. exfalso. apply H. reflexivity.
Qed.

(** the stopping rule *)
Lemma check_old_true brk w viol cs : length w = d -> Forall (fun c => length (fst c) = d) cs -> os_check_old brk w viol cs = Ok true ->
  exists c, In c cs /\ viol < Qcmax (violation w c) 0.
Proof.
  intros Hw. induction 1 as [|c cs HL HF IH]; cbn [os_check_old]; [discriminate|]. rewrite np_dot_ok by congruence. cbn [bind].
  destruct (Qcltb_spec (viol - Qcmax (snd c - dot w (fst c)) 0) (- small)) as [H|H].
  - intros _. exists c. split; [simpl; auto|]. unfold violation. set (m := Qcmax _ _) in *. clearbody m.
    assert (S0 : 0 < small) by reflexivity. set (z := small) in *. clearbody z. qclra.
  - intro E. destruct (IH E) as [c' [I' H']]. exists c'. split; [simpl; auto|auto].
Qed.
Lemma vec_eqb_eq u : forall v, vec_eqb u v = true -> u = v.
Proof.
  unfold vec_eqb. induction u as [|x u IH]; intros [|y v] H; try discriminate; auto. apply andb_true_iff in H. destruct H as [L H].
  cbn [combine forallb fst snd] in H. apply andb_true_iff in H. destruct H as [E H]. destruct (Qceqb_spec x y) as [->|]; [|discriminate].
  f_equal. apply IH. apply andb_true_iff. split; auto.
Qed.
Lemma stop_bound st brk c : 0 <= o_tol prm -> inv st -> o_obj st <> None -> length (fst c) = d ->
  os_check_bad prm brk (o_w st) (o_slack st) (violation (o_w st) c) (fst c) (snd c) (o_cons st) = Ok true ->
  violation (o_w st) c <= o_slack st + o_tol prm.
Proof.
  intros HT [I1 [I2 [_ [_ [_ I6]]]]] HO HL H. destruct (o_obj st) as [o|]; [|congruence]. destruct (I6 o eq_refl) as [_ [_ [v [WV SV]]]].
  unfold os_check_bad in H.
  match type of H with match ?b with _ => _ end = _ => destruct b; [discriminate|] end.
  destruct (Qcltb_spec (violation (o_w st) c - o_slack st) (o_tol prm)) as [A|A]; [qclra|].
  assert (B : forall c', In c' (o_cons st) -> Qcmax (violation (o_w st) c') 0 <= o_slack st).
  { intros c' Hc'. rewrite SV. apply Qcmax_lub; [|apply Qcmax_ge_r]. eapply Qcle_trans; [|apply Qcmax_ge_l]. apply WV. auto. }
  match type of H with (if ?b then _ else _) = _ => destruct b eqn:EX end.
  - apply existsb_exists in EX. destruct EX as [c' [I' E]]. apply andb_true_iff in E. destruct E as [E1 E2]. apply vec_eqb_eq in E1.
    destruct (Qceqb_spec (snd c) (snd c')) as [E3|]; [|discriminate]. specialize (B c' I').
    assert (violation (o_w st) c = violation (o_w st) c') by (unfold violation; rewrite E1, E3; reflexivity).
    assert (P := Qcmax_ge_l (violation (o_w st) c') 0). rewrite H0. qclra.
  - destruct (o_check prm); [|discriminate]. apply check_old_true in H; auto. 2:{ apply valid_len; auto. }
    destruct H as [c' [I' H']]. specialize (B c' I'). set (m := Qcmax _ _) in *. clearbody m. qclra.
Qed.
End run.
End one.

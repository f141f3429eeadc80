From Verif Require Import Model.Learner Spec.TaskSpec Proofs.Arrays Proofs.LossProofs Proofs.CRFProofs.

Lemma neg_vadd a b : length a = length b -> vadd (vscale (- (1)) a) b = vsub b a.
Proof.
  intro H. apply vec_ext.
  - rewrite vadd_length, vsub_length, vscale_length; auto. rewrite vscale_length; auto.
  - intros i _. rewrite get1_vadd, get1_vsub, get1_vscale; auto. ring. rewrite vscale_length; auto.
Qed.

Lemma margin_sub {X Y} (T : task X Y) w x y y' :
  length (t_feat T x y) = length (t_feat T x y') ->
  margin T w x y y' = t_loss T y y' - dot w (vsub (t_feat T x y) (t_feat T x y')).
Proof. intro H. unfold margin. rewrite dot_vsub_r by auto. ring. Qed.

(** find_constraint on a given or computed allowed output *)
Lemma find_constraint_value {X Y} (m : smodel X Y) T d x y w yo yh :
  implements m T d x y -> length w = d -> t_label T x yh ->
  (match yo with Some v => Ok v | None => sm_laug m x y w end) = Ok yh ->
  find_constraint m x y w yo true =
    Ok (yh, vsub (t_feat T x y) (t_feat T x yh), Qcmax (margin T w x y yh) 0, t_loss T y yh).
Proof.
  intros [L [Z H]] Hw HL E. unfold find_constraint. rewrite E. cbn [bind].
  destruct (H yh HL) as [D1 [J1 C1]]. destruct (H y L) as [D2 [J2 C2]].
  rewrite J1. cbn [bind]. rewrite J2. cbn [bind]. unfold np_vadd.
  rewrite vscale_length, D1, D2, Nat.eqb_refl. cbn [bind]. rewrite C1. cbn [bind].
  rewrite neg_vadd by congruence.
  rewrite np_dot_ok by (rewrite vsub_length; congruence). cbn [bind].
  rewrite margin_sub by congruence. reflexivity.
Qed.

Lemma margin_self {X Y} (T : task X Y) w x y : t_loss T y y = 0 -> margin T w x y y = 0.
Proof. intro H. unfold margin. rewrite H. ring. Qed.

Lemma find_constraint_hinge {X Y} (m : smodel X Y) T d x y w :
  implements m T d x y -> length w = d -> exact_laug m T w x y ->
  exists yh s, find_constraint m x y w None true =
      Ok (yh, vsub (t_feat T x y) (t_feat T x yh), s, t_loss T y yh) /\
    sm_laug m x y w = Ok yh /\ t_label T x yh /\
    s = t_loss T y yh - dot w (vsub (t_feat T x y) (t_feat T x yh)) /\
    0 <= s /\ is_hinge T w x y s.
Proof.
  intros HI Hw [yh [E [HL HM]]]. assert (HI' := HI). destruct HI' as [L [Z H]].
  exists yh, (margin T w x y yh). rewrite (find_constraint_value m T d x y w None yh) by auto.
  assert (B : forall y', t_label T x y' -> margin T w x y y' <= margin T w x y yh).
  { intros y' Hy'. specialize (HM y' Hy'). unfold margin. qclra. }
  assert (P : 0 <= margin T w x y yh).
  { rewrite <- (margin_self T w x y Z). apply B. exact L. }
  split; [|split; [|split; [|split; [|split]]]]; auto.
  - unfold Qcmax. destruct (Qcleb_spec (margin T w x y yh) 0) as [Q|Q]; auto.
    replace (margin T w x y yh) with 0; [reflexivity|]. apply Qcle_antisym; auto.
  - apply margin_sub. destruct (H yh HL), (H y L). congruence.
  - split; [eauto|exact B].
Qed.

Lemma hinge_bounds_prediction {X Y} (m : smodel X Y) (T : task X Y) w x y h :
  t_label T x y -> is_hinge T w x y h ->
  forall yp, t_label T x yp -> (forall y', t_label T x y' -> dot w (t_feat T x y') <= dot w (t_feat T x yp)) ->
  t_loss T y yp <= h.
Proof.
  intros L [_ H] yp HL HM. specialize (H yp HL). specialize (HM y L). unfold margin in H. qclra.
Qed.

(** an allowed but possibly not optimal answer gives a slack between 0 and the hinge loss *)
Lemma find_constraint_inexact {X Y} (m : smodel X Y) T d x y w yh h :
  implements m T d x y -> length w = d -> sm_laug m x y w = Ok yh -> t_label T x yh ->
  is_hinge T w x y h ->
  exists s, find_constraint m x y w None true =
      Ok (yh, vsub (t_feat T x y) (t_feat T x yh), s, t_loss T y yh) /\ 0 <= s /\ s <= h.
Proof.
  intros HI Hw E HL [_ HB]. exists (Qcmax (margin T w x y yh) 0).
  rewrite (find_constraint_value m T d x y w None yh) by auto. split; auto. split.
  - apply Qcmax_ge_r.
  - destruct HI as [L [Z _]]. apply Qcmax_lub; auto. rewrite <- (margin_self T w x y Z). auto.
Qed.

(** ** objective_primal *)
Lemma is_hinge_unique {X Y} (T : task X Y) w x y h h' : is_hinge T w x y h -> is_hinge T w x y h' -> h = h'.
Proof.
  intros [[a [La Ea]] Ba] [[b [Lb Eb]] Bb]. apply Qcle_antisym.
  - rewrite <- Ea. auto.
  - rewrite <- Eb. auto.
Qed.

Lemma constraints_hinges {X Y} (m : smodel X Y) T d w (S : list (X * Y)) :
  (forall p, In p S -> implements m T d (fst p) (snd p) /\ exact_laug m T w (fst p) (snd p)) ->
  length w = d ->
  exists cs, mapM (fun p => find_constraint m (fst p) (snd p) w None true) S = Ok cs /\
    length cs = length S /\
    Forall2 (fun p h => is_hinge T w (fst p) (snd p) h /\ 0 <= h) S (map (fun c => snd (fst c)) cs).
Proof.
  intros H Hw. induction S as [|p S IH].
  - exists []. repeat split; auto. constructor.
  - destruct IH as [cs [E [L F]]]. { intros q Hq. apply H. simpl; auto. }
    destruct (H p (or_introl eq_refl)) as [HI HE].
    destruct (find_constraint_hinge m T d _ _ w HI Hw HE) as [yh [s [E1 [_ [_ [_ [P1 P2]]]]]]].
    eexists. cbn [mapM]. rewrite E1. cbn [bind]. rewrite E. cbn [bind]. split; [reflexivity|].
    split; [simpl; congruence|]. cbn [map fst snd]. constructor; auto.
Qed.

Lemma map_max0 l : Forall (fun s => 0 <= s) l -> map (fun s => Qcmax s 0) l = l.
Proof.
  induction 1; simpl; auto. rewrite IHForall. f_equal. unfold Qcmax.
  destruct (Qcleb_spec x 0); auto. apply Qcle_antisym; auto.
Qed.

(** every slack find_constraint returns is non-negative *)
Lemma find_constraint_slack_nonneg {X Y} (m : smodel X Y) x y w yo b r :
  find_constraint m x y w yo b = Ok r -> 0 <= snd (fst r).
Proof.
  unfold find_constraint. intro H. repeat (apply bind_ok in H; destruct H as [? [_ H]]).
  injection H as <-. cbn [fst snd]. apply Qcmax_ge_r.
Qed.
Lemma lsum_nonneg' l : Forall (fun s => 0 <= s) l -> 0 <= lsum l.
Proof. intro H. apply lsum_nonneg. rewrite Forall_forall in H. auto. Qed.

Lemma slacks_nonneg {X Y} (m : smodel X Y) w S cs :
  mapM (fun p => find_constraint m (fst p) (snd p) w None true) S = Ok cs ->
  Forall (fun s => 0 <= s) (map (fun c : Y * list Qc * Qc * Qc => snd (fst c)) cs).
Proof.
  intro H. apply Forall_forall. intros s Hs. apply in_map_iff in Hs. destruct Hs as [c [<- Hc]].
  destruct (mapM_in _ _ _ _ H Hc) as [p [_ E]]. eapply find_constraint_slack_nonneg. exact E.
Qed.

Lemma objective_variants {X Y} (m : smodel X Y) w Xs Ys C :
  objective_primal m w Xs Ys C NSlack = objective_primal m w Xs Ys C OneSlack.
Proof.
  unfold objective_primal.
  destruct (mapM (fun p => find_constraint m (fst p) (snd p) w None true) (combine Xs Ys)) as [cs|e] eqn:E; cbn [bind]; auto.
  destruct (ensure (negb (length cs =? 0)%nat) IndexError); cbn [bind]; auto.
  rewrite map_max0 by (eapply slacks_nonneg; exact E). reflexivity.
Qed.

Lemma Qchalf_nonneg a : 0 <= a -> 0 <= a / (1 + 1).
Proof. intro H. unfold Qcdiv. apply Qcmult_nonneg; auto. discriminate. Qed.

Lemma objective_at_least_norm {X Y} (m : smodel X Y) w Xs Ys C v r :
  0 <= C -> objective_primal m w Xs Ys C v = Ok r -> normsq w / (1 + 1) <= r.
Proof.
  intros HC H. unfold objective_primal in H.
  apply bind_ok in H. destruct H as [cs [E H]]. apply bind_ok in H. destruct H as [u [_ H]].
  injection H as <-.
  match goal with |- _ <= Qcmax ?a 0 * C + _ => assert (P := Qcmax_ge_r a 0); set (q := Qcmax a 0) in * end.
  assert (0 <= q * C) by (apply Qcmult_nonneg; auto). qclra.
Qed.

Lemma objective_value {X Y} (m : smodel X Y) T d w Xs Ys C v :
  length Xs = length Ys -> Xs <> [] -> length w = d ->
  (forall p, In p (combine Xs Ys) -> implements m T d (fst p) (snd p) /\ exact_laug m T w (fst p) (snd p)) ->
  exists hs, Forall2 (fun p h => is_hinge T w (fst p) (snd p) h) (combine Xs Ys) hs /\
    objective_primal m w Xs Ys C v = Ok (primal_value C w hs).
Proof.
  intros HL HN Hw H. destruct (constraints_hinges m T d w (combine Xs Ys) H Hw) as [cs [E [L F]]].
  exists (map (fun c => snd (fst c)) cs). split.
  { clear -F. induction F; constructor; tauto. }
  assert (P := slacks_nonneg m w _ cs E).
  assert (V : objective_primal m w Xs Ys C v = objective_primal m w Xs Ys C OneSlack).
  { destruct v; auto. apply objective_variants. }
  rewrite V. unfold objective_primal. rewrite E. cbn [bind].
  assert (length cs <> O).
  { rewrite L, combine_length. destruct Xs, Ys; simpl in *; congruence || lia. }
  destruct (Nat.eqb_spec (length cs) 0); [contradiction|]. cbn [negb ensure bind].
  f_equal. unfold primal_value.
  match goal with |- Qcmax ?a 0 * C + _ = _ => assert (Q : 0 <= a) by (apply lsum_nonneg'; exact P) end.
  replace (Qcmax (lsum (map (fun c => snd (fst c)) cs)) 0) with (lsum (map (fun c => snd (fst c)) cs)).
  - ring.
  - unfold Qcmax. destruct (Qcleb_spec (lsum (map (fun c => snd (fst c)) cs)) 0) as [B|B]; auto.
    apply Qcle_antisym; auto.
Qed.

Lemma objective_bounds_loss {X Y} (m : smodel X Y) T d w Xs Ys C v :
  length Xs = length Ys -> Xs <> [] -> length w = d -> 0 <= C ->
  (forall p, In p (combine Xs Ys) ->
     implements m T d (fst p) (snd p) /\ exact_laug m T w (fst p) (snd p) /\ exact_inference m T w (fst p)) ->
  exists r Yp, objective_primal m w Xs Ys C v = Ok r /\
    mapM (fun x => sm_inference m x w) Xs = Ok Yp /\
    C * lsum (zipw (t_loss T) Ys Yp) + normsq w / (1 + 1) <= r.
Proof.
  intros HL HN Hw HC H.
  destruct (objective_value m T d w Xs Ys C v HL HN Hw) as [hs [F E]].
  { intros p Hp. destruct (H p Hp) as [A [B _]]. auto. }
  assert (G : exists Yp, mapM (fun x => sm_inference m x w) Xs = Ok Yp /\ lsum (zipw (t_loss T) Ys Yp) <= lsum hs).
  { clear E HN C v HC. revert Ys hs HL H F. induction Xs as [|x Xs IH]; intros [|y Ys] hs HL H F; try discriminate.
    - exists []. split; auto. cbn [zipw]. simpl in F. inversion F. apply Qcle_refl.
    - cbn [combine] in *. inversion F as [|p h S hs' F1 F2]; subst.
      destruct (IH Ys hs') as [Yp [E1 E2]]; auto. { intros p Hp. apply H. simpl. auto. }
      destruct (H (x, y) (or_introl eq_refl)) as [HI [HE [yp [EI [Lp Mp]]]]]. cbn [fst snd] in *.
      exists (yp :: Yp). cbn [mapM]. rewrite EI. cbn [bind]. rewrite E1. split; auto.
      cbn [zipw]. change (lsum (?a :: ?l)) with (a + lsum l).
      assert (B : t_loss T y yp <= h).
      { eapply hinge_bounds_prediction; eauto. apply HI. }
      qclra. }
  destruct G as [Yp [E1 E2]]. exists (primal_value C w hs), Yp. split; auto. split; auto.
  unfold primal_value. assert (C * lsum (zipw (t_loss T) Ys Yp) <= C * lsum hs).
  { rewrite (Qcmult_comm C), (Qcmult_comm C). apply Qcmult_le_compat_r; auto. }
  qclra.
Qed.

(** ** convexity *)
Definition mix (t : Qc) (a b : list Qc) : list Qc := vadd (vscale t a) (vscale (1 - t) b).
Lemma mix_length t a b : length a = length b -> length (mix t a b) = length a.
Proof. intro H. unfold mix. rewrite vadd_length; rewrite !vscale_length; auto. Qed.
Lemma dot_mix t a b f : length a = length b -> dot (mix t a b) f = t * dot a f + (1 - t) * dot b f.
Proof. intro H. unfold mix. rewrite dot_vadd_l by (rewrite !vscale_length; auto). rewrite !dot_vscale_l. reflexivity. Qed.
Lemma normsq_mix t a b : length a = length b -> 0 <= t -> t <= 1 ->
  normsq (mix t a b) <= t * normsq a + (1 - t) * normsq b.
Proof.
  intros H H0 H1. unfold normsq. rewrite dot_mix by auto. rewrite !(dot_comm _ (mix t a b)), !dot_mix by auto.
  rewrite (dot_comm b a).
  assert (P := normsq_nonneg (vsub a b)). unfold normsq in P.
  rewrite dot_vsub_l, !dot_vsub_r in P by auto. rewrite (dot_comm b a) in P.
  set (u := dot a a) in *. set (v := dot a b) in *. set (z := dot b b) in *.
  assert (Q : 0 <= t * (1 - t) * (u - v - (v - z))).
  { apply Qcmult_nonneg; auto. apply Qcmult_nonneg; auto. qclra. }
  replace (t * u + (1 - t) * z) with (t * (t * u + (1 - t) * v) + (1 - t) * (t * v + (1 - t) * z) + t * (1 - t) * (u - v - (v - z))) by ring.
  qclra.
Qed.
Lemma hinge_mix {X Y} (T : task X Y) t a b x y h ha hb : length a = length b -> 0 <= t -> t <= 1 ->
  is_hinge T (mix t a b) x y h -> is_hinge T a x y ha -> is_hinge T b x y hb ->
  h <= t * ha + (1 - t) * hb.
Proof.
  intros HL H0 H1 [[y' [L' E]] _] [_ Ba] [_ Bb]. rewrite <- E. unfold margin.
  rewrite !dot_mix by auto.
  assert (A := Ba y' L'). assert (B := Bb y' L'). unfold margin in A, B.
  set (l := t_loss T y y') in *.
  replace (l - (t * dot a (t_feat T x y) + (1 - t) * dot b (t_feat T x y) - (t * dot a (t_feat T x y') + (1 - t) * dot b (t_feat T x y'))))
    with (t * (l - (dot a (t_feat T x y) - dot a (t_feat T x y'))) + (1 - t) * (l - (dot b (t_feat T x y) - dot b (t_feat T x y')))) by ring.
  assert (A' : 0 <= t * (ha - (l - (dot a (t_feat T x y) - dot a (t_feat T x y'))))).
  { apply Qcmult_nonneg; auto. qclra. }
  assert (B' : 0 <= (1 - t) * (hb - (l - (dot b (t_feat T x y) - dot b (t_feat T x y'))))).
  { apply Qcmult_nonneg; auto; qclra. }
  set (p := l - (dot a (t_feat T x y) - dot a (t_feat T x y'))) in *.
  set (q := l - (dot b (t_feat T x y) - dot b (t_feat T x y'))) in *.
  replace (t * (ha - p)) with (t * ha - t * p) in A' by ring.
  replace ((1 - t) * (hb - q)) with ((1 - t) * hb - (1 - t) * q) in B' by ring.
  clearbody p q. clear - A' B'.
  set (a1 := t * ha) in *. set (a2 := t * p) in *. set (a3 := (1 - t) * hb) in *. set (a4 := (1 - t) * q) in *.
  clearbody a1 a2 a3 a4. qclra.
Qed.

Lemma primal_mix {X Y} (T : task X Y) C t a b S h ha hb : length a = length b -> 0 <= t -> t <= 1 -> 0 <= C ->
  Forall2 (fun p v => is_hinge T (mix t a b) (fst p) (snd p) v) S h ->
  Forall2 (fun p v => is_hinge T a (fst p) (snd p) v) S ha ->
  Forall2 (fun p v => is_hinge T b (fst p) (snd p) v) S hb ->
  primal_value C (mix t a b) h <= t * primal_value C a ha + (1 - t) * primal_value C b hb.
Proof.
  intros HL H0 H1 HC F Fa Fb.
  assert (G : lsum h <= t * lsum ha + (1 - t) * lsum hb).
  { revert h ha hb F Fa Fb. induction S; intros h ha hb F Fa Fb; inversion F; inversion Fa; inversion Fb; subst.
    - change (lsum []) with 0. replace (t * 0 + (1 - t) * 0) with 0 by ring. apply Qcle_refl.
    - repeat change (lsum (?p :: ?l)) with (p + lsum l).
      assert (Q := hinge_mix T t a b (fst a0) (snd a0) y y0 y1 HL H0 H1 H3 H8 H13).
      assert (R := IHS _ _ _ H5 H10 H15).
      replace (t * (y0 + lsum l'0) + (1 - t) * (y1 + lsum l'1)) with
        ((t * y0 + (1 - t) * y1) + (t * lsum l'0 + (1 - t) * lsum l'1)) by ring.
      qclra. }
  assert (N := normsq_mix t a b HL H0 H1). unfold primal_value.
  assert (G' : 0 <= C * (t * lsum ha + (1 - t) * lsum hb - lsum h)).
  { apply Qcmult_nonneg; auto. qclra. }
  assert (N' : 0 <= (t * normsq a + (1 - t) * normsq b - normsq (mix t a b)) / (1 + 1)).
  { apply Qchalf_nonneg. qclra. }
  replace (t * (C * lsum ha + normsq a / (1 + 1)) + (1 - t) * (C * lsum hb + normsq b / (1 + 1)))
    with (C * lsum h + normsq (mix t a b) / (1 + 1) + C * (t * lsum ha + (1 - t) * lsum hb - lsum h)
          + (t * normsq a + (1 - t) * normsq b - normsq (mix t a b)) / (1 + 1)).
  - qclra.
  - field. discriminate.
Qed.

Lemma objective_convex {X Y} (m : smodel X Y) T d t a b Xs Ys C v :
  length Xs = length Ys -> Xs <> [] -> length a = d -> length b = d -> 0 <= C -> 0 <= t -> t <= 1 ->
  (forall w p, length w = d -> In p (combine Xs Ys) ->
     implements m T d (fst p) (snd p) /\ exact_laug m T w (fst p) (snd p)) ->
  exists r ra rb, objective_primal m (vadd (vscale t a) (vscale (1 - t) b)) Xs Ys C v = Ok r /\
    objective_primal m a Xs Ys C v = Ok ra /\ objective_primal m b Xs Ys C v = Ok rb /\
    r <= t * ra + (1 - t) * rb.
Proof.
  intros HL HN Ha Hb HC H0 H1 H. fold (mix t a b).
  assert (Lm : length (mix t a b) = d) by (rewrite mix_length; congruence).
  destruct (objective_value m T d (mix t a b) Xs Ys C v HL HN Lm) as [h [F E]]. { intros; apply H; auto. }
  destruct (objective_value m T d a Xs Ys C v HL HN Ha) as [ha [Fa Ea]]. { intros; apply H; auto. }
  destruct (objective_value m T d b Xs Ys C v HL HN Hb) as [hb [Fb Eb]]. { intros; apply H; auto. }
  do 3 eexists. split; [exact E|]. split; [exact Ea|]. split; [exact Eb|].
  apply (primal_mix T C t a b (combine Xs Ys)); auto. congruence.
Qed.

(** The iterations of LatentSSVM settle: the weights move less and less, and with an exact base learner no completion is
    tried twice. *)
From Verif Require Import Model.LatentSSVM Proofs.Arrays Proofs.LossProofs Proofs.LearnerProofs Proofs.LatentProofs4 Proofs.LatentSSVMProofs Proofs.LatentSSVMProofs2
  Proofs.LatentSSVMProofs3 Proofs.SubgradientRate3 Proofs.SubgradientRate6 Proofs.SpanProofs Spec.SettleSpec.

Lemma same_weights a b : length a = length b -> normsq (vsub a b) = 0 -> a = b.
Proof.
  intros HL HZ. apply nth_ext with 0 0; [exact HL|]. intros i Hi. assert (Q := normsq_zero _ HZ i). rewrite get1_vsub in Q by exact HL. unfold get1 in Q. qclra.
Qed.
Lemma successive_in {A} (l : list A) a b : successive l a b -> In a l /\ In b l.
Proof. intros [pre [post ->]]. split; apply in_or_app; right; [left; reflexivity|right; left; reflexivity]. Qed.
Lemma successive_nth {A} (l : list A) : forall n a b, nth_error l n = Some a -> nth_error l (S n) = Some b -> successive l a b.
Proof.
  induction l as [|q l IH]; intros n a b E1 En; [destruct n; discriminate|]. destruct n as [|n].
  - cbn in E1, En. destruct l as [|q' l]; [discriminate|]. injection E1 as ->. injection En as ->. exists [], l. reflexivity.
  - destruct (IH n a b E1 En) as [pre [post ->]]. exists (q :: pre), post. reflexivity.
Qed.

Section gap.
Context {X Y : Type} (T : task X Y) (d : nat) (s : smodel X Y).
(** the objective grows quadratically away from nearly minimal weights *)
Lemma near_gap C S w v e hw hs : 0 <= C -> oracle_exact s T d S -> near_minimal T d C S w e -> length v = d -> hinges T w S hw -> hinges T v S hs ->
  primal_value C w hw + normsq (vsub w v) / ofN 4 <= primal_value C v hs + (e + e).
Proof.
  intros HC HO [Hw [h1 [H1 N1]]] Hv H1' H2. rewrite (hinges_are T d s S w hw HO Hw H1'), <- (hinges_are T d s S w h1 HO Hw H1). clear hw H1'.
  assert (HL : length w = length v) by congruence. assert (Hu := half_length d w v Hw Hv).
  assert (H := hinges_hv T d s S (half w v) HO Hu). set (h := map (hv T s (half w v)) S) in *. specialize (N1 _ _ Hu H).
  assert (Q := half_hinges T w v HL S h1 hs h H1 H2 H). unfold primal_value in *. rewrite (half_norm w v HL) in *.
  replace (ofN 4) with ((1 + 1) * (1 + 1)) by (apply Qc_is_canon; vm_compute; reflexivity).
  assert (QC : C * lsum h + C * lsum h <= C * lsum h1 + C * lsum hs).
  { rewrite <- !Qcmult_plus_distr_r. rewrite !(Qcmult_comm C). apply Qcmult_le_compat_r; [exact Q|exact HC]. }
  set (x := C * lsum h) in *. set (x1 := C * lsum h1) in *. set (x2 := C * lsum hs) in *. set (a := normsq w) in *. set (b := normsq v) in *. set (D := normsq (vsub w v)) in *. clearbody x x1 x2 a b D h. clear - N1 QC.
  assert (E1 : ((a + b) / (1 + 1) - D / ((1 + 1) * (1 + 1))) / (1 + 1) + ((a + b) / (1 + 1) - D / ((1 + 1) * (1 + 1))) / (1 + 1) = a / (1 + 1) + b / (1 + 1) - D / ((1 + 1) * (1 + 1))) by (field; repeat split; discriminate).
  set (g := D / ((1 + 1) * (1 + 1))) in *. set (f := ((a + b) / (1 + 1) - g) / (1 + 1)) in *. set (a2 := a / (1 + 1)) in *. set (b2 := b / (1 + 1)) in *. clearbody g f a2 b2. qclra.
Qed.
End gap.

Section settle.
Context {X Y B : Type} (T : task X Y) (E : X -> Y -> Y -> Prop) (d : nat) (ydiff : Y -> Y -> bool) (m : lmodel X Y) (bl : base_learner X Y B).
Variables (Xs : list X) (Ys : list Y) (C eps : Qc).
Notation S0 := (combine Xs Ys).
Hypothesis HL : length Xs = length Ys.
Hypothesis HC : 0 <= C.
Hypothesis HO : observed_loss T E S0.
Hypothesis HE : completed_exact (lm_s m) T E d S0.
Variables (k : nat) (Hi : option (list Y)) (H0 : list Y) (l : list (list Y * B)) (stop : latent_stop).
Hypothesis EF : cccp_fit ydiff m bl Xs Ys k Hi = Ok (H0, l, stop).
Hypothesis HH0 : completes E Xs Ys H0.
Hypothesis HX : forall H b, In (H, b) l -> near_minimal T d C (combine Xs H) (bl_w bl b) eps /\ Forall (latent_exact m T E d (bl_w bl b)) S0.

Lemma visited_length H b : In (H, b) l -> length (bl_w bl b) = d.
Proof. intro Q. apply (HX H b Q). Qed.
Lemma visited_completes H b : In (H, b) l -> completes E Xs Ys H.
Proof.
  destruct (fit_trace ydiff m bl Xs Ys k Hi H0 l stop EF) as [_ [_ [_ [_ [A1 [A2 _]]]]]]. intro Q. apply In_nth_error in Q. destruct Q as [[|n] Q].
  - destruct l as [|q l']; [discriminate|]. cbn in Q. destruct (A1 q l' eq_refl) as [A3 _]. assert (H = H0) by (injection Q as ->; exact A3). congruence.
  - destruct (nth_error l n) as [[H1 b1]|] eqn:E1.
    2:{ apply nth_error_None in E1. assert (S n < length l)%nat by (apply nth_error_Some; congruence). lia. }
    assert (SU := successive_nth l n _ _ E1 Q). destruct (A2 _ _ SU) as [I1 _]. cbn [fst snd] in I1. destruct (successive_in _ _ _ SU) as [N1 _].
    destruct (completed_hinges T E d m (bl_w bl b1) Xs Ys H (visited_length H1 b1 N1) (proj2 (HX H1 b1 N1)) HL I1) as [_ [_ [_ A]]]. exact A.
Qed.
Lemma visited_oracle H b : In (H, b) l -> oracle_exact (lm_s m) T d (combine Xs H).
Proof. intro Q. exact (completed_oracle T E d (lm_s m) Xs Ys H HE (visited_completes H b Q)). Qed.
Lemma visited_latent H b : In (H, b) l -> exists gs, latent_hinges T E (bl_w bl b) S0 gs.
Proof. intro Q. exact (latent_exists T E d m (bl_w bl b) Xs Ys (visited_length H b Q) (proj2 (HX H b Q)) HL). Qed.

(** one iteration *)
Lemma step_moves H b H' b' gs gs' : successive l (H, b) (H', b') -> latent_hinges T E (bl_w bl b) S0 gs -> latent_hinges T E (bl_w bl b') S0 gs' ->
  primal_value C (bl_w bl b') gs' + normsq (vsub (bl_w bl b') (bl_w bl b)) / ofN 4 <= primal_value C (bl_w bl b) gs + (eps + eps).
Proof.
  intros SU HG HG'. destruct (successive_in _ _ _ SU) as [N1 N2]. destruct (fit_trace ydiff m bl Xs Ys k Hi H0 l stop EF) as [_ [_ [_ [_ [_ [A2 _]]]]]].
  destruct (A2 _ _ SU) as [I1 _]. cbn [fst snd] in I1.
  destruct (completed_hinges T E d m (bl_w bl b) Xs Ys H' (visited_length H b N1) (proj2 (HX H b N1)) HL I1) as [hs [B1 [B2 B3]]].
  rewrite (latent_hinges_unique T E _ S0 HO gs hs HG B2).
  assert (OR := visited_oracle H' b' N2). assert (HH := hinges_hv T d (lm_s m) (combine Xs H') (bl_w bl b') OR (visited_length H' b' N2)).
  set (hs' := map (hv T (lm_s m) (bl_w bl b')) (combine Xs H')) in *.
  assert (G := near_gap T d (lm_s m) C (combine Xs H') (bl_w bl b') (bl_w bl b) eps hs' hs HC OR (proj1 (HX H' b' N2)) (visited_length H b N1) HH B1).
  eapply Qcle_trans; [|exact G]. apply Qcplus_le_compat; [|apply Qcle_refl]. apply primal_mono; [exact HC|].
  exact (latent_le_completed T E _ Xs Ys H' gs' hs' HL B3 HO HG' HH).
Qed.
Lemma weights_at i H b : nth_error l i = Some (H, b) -> run_weights (bl_w bl) l i = bl_w bl b.
Proof. intro Q. unfold run_weights. rewrite Q. reflexivity. Qed.
(** several iterations *)
Lemma steps_move i n : forall H b H' b' gs gs', nth_error l i = Some (H, b) -> nth_error l (i + n) = Some (H', b') ->
  latent_hinges T E (bl_w bl b) S0 gs -> latent_hinges T E (bl_w bl b') S0 gs' ->
  primal_value C (bl_w bl b') gs' + sumn n (fun j => moved (bl_w bl) l (i + j)) / ofN 4 <= primal_value C (bl_w bl b) gs + ofN n * (eps + eps).
Proof.
  induction n as [|n IH]; intros H b H' b' gs gs' E0 En HG HG'.
  - rewrite Nat.add_0_r in En. assert (b = b') by congruence. subst b'. rewrite (latent_hinges_unique T E _ S0 HO gs gs' HG HG'). rewrite ofN_0. cbn [sumn].
    match goal with |- ?a + _ <= _ => replace (a + 0 * (eps + eps)) with (a + 0) by ring; replace (0 / ofN 4) with 0 by (apply Qc_is_canon; vm_compute; reflexivity) end. apply Qcle_refl.
  - destruct (nth_error l (i + n)) as [[H1 b1]|] eqn:E1.
    2:{ apply nth_error_None in E1. assert (i + S n < length l)%nat by (apply nth_error_Some; congruence). lia. }
    destruct (visited_latent H1 b1 (nth_error_In _ _ E1)) as [g1 G1]. replace (i + S n)%nat with (S (i + n)) in En by lia.
    assert (A := IH H b H1 b1 gs g1 E0 eq_refl HG G1). assert (A3 := step_moves H1 b1 H' b' g1 gs' (successive_nth l _ _ _ E1 En) G1 HG').
    assert (EM : moved (bl_w bl) l (i + n) = normsq (vsub (bl_w bl b') (bl_w bl b1))) by (unfold moved; rewrite (weights_at _ _ _ E1), (weights_at _ _ _ En); reflexivity).
    rewrite sumn_S. cbv beta. rewrite EM. set (D := normsq (vsub (bl_w bl b') (bl_w bl b1))) in *. set (s := sumn n _) in *. rewrite (ofN_S n).
    set (p := primal_value C (bl_w bl b) gs) in *. set (p1 := primal_value C (bl_w bl b1) g1) in *. set (p' := primal_value C (bl_w bl b') gs') in *. clearbody D s p p1 p'. clear - A A3.
    replace ((s + D) / ofN 4) with (s / ofN 4 + D / ofN 4) by (field; intro Q; apply (f_equal this) in Q; vm_compute in Q; discriminate).
    replace ((1 + ofN n) * (eps + eps)) with (ofN n * (eps + eps) + (eps + eps)) by ring.
    set (e := ofN n * (eps + eps)) in *. set (s4 := s / ofN 4) in *. set (D4 := D / ofN 4) in *. clearbody e s4 D4. qclra.
Qed.

(** the first fit starts from the objective at zero *)
Lemma first_below b h0 gs : nth_error l 0 = Some (H0, b) -> hinges T (vzero d) (combine Xs H0) h0 -> latent_hinges T E (bl_w bl b) S0 gs ->
  primal_value C (bl_w bl b) gs <= C * lsum h0 + eps.
Proof.
  intros Q HZ HG. assert (N := nth_error_In _ _ Q). destruct (proj1 (HX _ _ N)) as [Hw [hs [A1 A2]]]. specialize (A2 (vzero d) h0 (repeat_length _ _) HZ).
  eapply Qcle_trans; [apply (primal_mono C _ gs hs HC)|].
  - exact (latent_le_completed T E _ Xs Ys H0 gs hs HL HH0 HO HG A1).
  - eapply Qcle_trans; [exact A2|]. apply Qcplus_le_compat; [|apply Qcle_refl]. unfold primal_value. replace (normsq (vzero d)) with 0.
    + match goal with |- ?a + 0 / _ <= _ => replace (a + 0 / (1 + 1)) with a by (field; discriminate) end. apply Qcle_refl.
    + unfold normsq. symmetry. apply dot_vzero_l.
Qed.
Lemma latent_nonneg w gs : latent_hinges T E w S0 gs -> 0 <= lsum gs.
Proof.
  intro HG. unfold latent_hinges in HG. clear - HG HE. revert HE. induction HG as [|p v S r [h [[H1 _] [_ H2]]] HG IH]; intro HE; [apply Qcle_refl|]. change (lsum (v :: r)) with (v + lsum r).
  destruct (HE p h (or_introl eq_refl) H1) as [[A1 [A2 _]] _]. specialize (H2 h A1). unfold margin in H2. rewrite A2 in H2.
  assert (0 <= lsum r). { apply IH. intros q u Hq. apply HE. right. exact Hq. }
  set (x := dot w (t_feat T (fst p) h)) in *. clearbody x. set (y := lsum r) in *. clearbody y. clear - H H2. qclra.
Qed.
Lemma primal_nonneg w gs : latent_hinges T E w S0 gs -> 0 <= primal_value C w gs.
Proof.
  intro HG. unfold primal_value. assert (A := Qcmult_nonneg _ _ HC (latent_nonneg w gs HG)). assert (B0 := normsq_nonneg w).
  set (x := C * lsum gs) in *. set (y := normsq w) in *. clearbody x y. clear - A B0.
  assert (E2 : y = y / (1 + 1) + y / (1 + 1)) by (field; discriminate). set (z := y / (1 + 1)) in *. clearbody z. qclra.
Qed.
Lemma some_below (f : nat -> Qc) n : (0 < n)%nat -> exists i, (i < n)%nat /\ ofN n * f i <= sumn n f.
Proof.
  intro Hn. assert (A : exists i, (i < n)%nat /\ forall j, (j < n)%nat -> f i <= f j).
  { induction n as [|n IH]; [lia|]. destruct n as [|n].
    - exists O. split; [lia|]. intros j Hj. replace j with O by lia. apply Qcle_refl.
    - destruct (IH ltac:(lia)) as [i [I1 I2]]. destruct (Qcleb_spec (f i) (f (S n))) as [Z|Z].
      + exists i. split; [lia|]. intros j Hj. destruct (Nat.eq_dec j (S n)) as [->|]; [exact Z|apply I2; lia].
      + exists (S n). split; [lia|]. intros j Hj. destruct (Nat.eq_dec j (S n)) as [->|]; [apply Qcle_refl|]. assert (Q := I2 j ltac:(lia)). qclra. }
  destruct A as [i [I1 I2]]. exists i. split; [exact I1|]. rewrite <- sumn_const. apply sumn_le. intros j Hj. apply I2. exact Hj.
Qed.
Lemma small_step n h0 : (0 < n < length l)%nat -> hinges T (vzero d) (combine Xs H0) h0 ->
  sumn n (moved (bl_w bl) l) <= ofN 4 * (C * lsum h0 + eps) + ofN n * (ofN 8 * eps) /\
  exists i, (i < n)%nat /\ ofN n * moved (bl_w bl) l i <= ofN 4 * (C * lsum h0 + eps) + ofN n * (ofN 8 * eps).
Proof.
  intros Hn HZ. destruct (fit_trace ydiff m bl Xs Ys k Hi H0 l stop EF) as [_ [_ [_ [_ [A1 _]]]]].
  assert (F : exists b, nth_error l 0 = Some (H0, b)).
  { destruct l as [|[H b] l']; [cbn in Hn; lia|]. destruct (A1 _ _ eq_refl) as [A2 _]. cbn [fst] in A2. subst H. exists b. reflexivity. }
  destruct F as [b F]. destruct (nth_error l n) as [[H' b']|] eqn:En; [|apply nth_error_None in En; lia].
  destruct (visited_latent _ _ (nth_error_In _ _ F)) as [gs G]. destruct (visited_latent _ _ (nth_error_In _ _ En)) as [gs' G'].
  assert (A := steps_move 0 n _ _ _ _ gs gs' F En G G'). assert (B1 := first_below b h0 gs F HZ G). assert (B2 := primal_nonneg _ _ G').
  assert (Q : sumn n (moved (bl_w bl) l) <= ofN 4 * (C * lsum h0 + eps) + ofN n * (ofN 8 * eps)).
  { change (sumn n (fun j => moved (bl_w bl) l (0 + j))) with (sumn n (moved (bl_w bl) l)) in A.
    set (s := sumn n (moved (bl_w bl) l)) in *. set (p := primal_value C (bl_w bl b) gs) in *. set (p' := primal_value C (bl_w bl b') gs') in *. set (c := C * lsum h0 + eps) in *. clearbody s p p' c. clear - A B1 B2.
    assert (E2 : ofN n * (ofN 8 * eps) = ofN 4 * (ofN n * (eps + eps))).
    { replace (ofN 8) with (ofN 4 * (1 + 1)) by (apply Qc_is_canon; vm_compute; reflexivity). ring. } rewrite E2. set (e := ofN n * (eps + eps)) in *. clearbody e.
    assert (E1 : s = ofN 4 * (s / ofN 4)) by (field; intro Q; apply (f_equal this) in Q; vm_compute in Q; discriminate). rewrite E1. set (s4 := s / ofN 4) in *. clearbody s4. clear E1 E2 s.
    rewrite <- Qcmult_plus_distr_r. rewrite !(Qcmult_comm (ofN 4)). apply Qcmult_le_compat_r; [qclra|apply ofN_nonneg]. }
  split; [exact Q|]. destruct (some_below (moved (bl_w bl) l) n ltac:(lia)) as [i [I1 I2]]. exists i. split; [exact I1|]. eapply Qcle_trans; [exact I2|exact Q].
Qed.
(** a run that ended by itself is at a local minimum: it is nearly best among all weights that complete the samples in the same way *)
Lemma local_minimum : stop = NoChange ->
  (forall p h h', In p S0 -> E (fst p) (snd p) h -> E (fst p) (snd p) h' -> ydiff h h' = false -> h = h') ->
  exists pre H b gs, l = pre ++ [(H, b)] /\ completed_at m (bl_w bl b) Xs Ys H /\ hinges T (bl_w bl b) (combine Xs H) gs /\ latent_hinges T E (bl_w bl b) S0 gs /\
    forall v gv, length v = d -> latent_hinges T E v S0 gv -> Forall2 (fun p h => best_completion T E v (fst p) (snd p) h) S0 H ->
      primal_value C (bl_w bl b) gs <= primal_value C v gv + eps.
Proof.
  intros ES HD. assert (EF' := EF). rewrite ES in EF'. destruct (fixed_point T E d ydiff m bl Xs Ys HL k Hi H0 l EF') as [pre [H [b [gs [A1 [A2 [A3 A4]]]]]]].
  - intros H b Q. split; [exact (visited_length H b Q)|]. split; [exact (proj2 (HX H b Q))|exact (visited_completes H b Q)].
  - exact HD.
  - exists pre, H, b, gs. split; [exact A1|]. split; [exact A2|]. split; [exact A3|]. split; [exact A4|]. intros v gv Hv HG HB.
    assert (N : In (H, b) l) by (rewrite A1; apply in_or_app; right; left; reflexivity).
    assert (OR := visited_oracle H b N). destruct (proj1 (HX H b N)) as [Hw [hw [B1 B2]]].
    rewrite (hinges_are T d (lm_s m) _ _ gs OR Hw A3), <- (hinges_are T d (lm_s m) _ _ hw OR Hw B1).
    assert (HH := hinges_hv T d (lm_s m) (combine Xs H) v OR Hv). set (hs := map (hv T (lm_s m) v) (combine Xs H)) in *.
    assert (LH : latent_hinges T E v S0 hs).
    { clearbody hs. clear - HL HB HH. revert Ys HL H hs HB HH. induction Xs as [|x xs IH]; intros [|y ys] HL H hs HB HH; try discriminate HL.
      - cbn in *. inversion HH. constructor.
      - cbn [combine] in *. inversion HB as [|p h r H' P1 P2]; subst. cbn [combine] in HH. inversion HH as [|p2 v2 r2 hs' Q1 Q2]; subst. cbn [fst snd] in *. constructor.
        + exists h. split; [exact P1|exact Q1].
        + apply (IH ys ltac:(cbn in HL; lia) H' hs' P2 Q2). }
    rewrite (latent_hinges_unique T E v S0 HO gv hs HG LH). exact (B2 v hs Hv HH).
Qed.
End settle.

(** ** exact base learners *)
Lemma completed_unique {X Y} (m : lmodel X Y) w Xs Ys H H' : completed_at m w Xs Ys H -> completed_at m w Xs Ys H' -> H = H'.
Proof. unfold completed_at. intro A. revert H'. induction A as [|p h S H Q A IH]; intros H' A'; inversion A'; subst; [reflexivity|]. f_equal; [congruence|auto]. Qed.
Lemma differ_refl {Y} (ydiff : Y -> Y -> bool) H : (forall h, In h H -> ydiff h h = false) -> LatentSSVMSpec.differ ydiff H H = false.
Proof. intro Q. unfold LatentSSVMSpec.differ. induction H as [|h H IH]; [reflexivity|]. cbn [combine existsb fst snd]. rewrite (Q h (or_introl eq_refl)). apply IH. intros u Hu. apply Q. right. exact Hu. Qed.
(** all ways of taking one entry of every list *)
Fixpoint choices {A} (cs : list (list A)) : list (list A) :=
  match cs with
  | [] => [[]]
  | c :: r => flat_map (fun h => map (cons h) (choices r)) c
  end.
Lemma choices_length {A} (cs : list (list A)) : length (choices cs) = product (map (@length A) cs).
Proof.
  induction cs as [|c r IH]; [reflexivity|]. cbn [choices map product fold_right]. fold (product (map (@length A) r)). rewrite <- IH. clear IH. induction c as [|h c IH]; [reflexivity|].
  cbn [flat_map length]. rewrite app_length, map_length, IH. lia.
Qed.
Lemma in_choices {A} (cs : list (list A)) : forall H, Forall2 (fun h c => In h c) H cs -> In H (choices cs).
Proof.
  induction cs as [|c r IH]; intros H Q; inversion Q; subst; [left; reflexivity|]. cbn [choices]. apply in_flat_map. exists x. split; [assumption|]. apply in_map. apply IH. assumption.
Qed.

Section exact.
Context {X Y B : Type} (T : task X Y) (E : X -> Y -> Y -> Prop) (d : nat) (ydiff : Y -> Y -> bool) (m : lmodel X Y) (bl : base_learner X Y B).
Variables (Xs : list X) (Ys : list Y) (C : Qc).
Notation S0 := (combine Xs Ys).
Hypothesis HL : length Xs = length Ys.
Hypothesis HC : 0 <= C.
Hypothesis HO : observed_loss T E S0.
Hypothesis HE : completed_exact (lm_s m) T E d S0.
Hypothesis HR : forall p h, In p S0 -> E (fst p) (snd p) h -> ydiff h h = false.
Variables (k : nat) (Hi : option (list Y)) (H0 : list Y) (l : list (list Y * B)) (stop : latent_stop).
Hypothesis EF : cccp_fit ydiff m bl Xs Ys k Hi = Ok (H0, l, stop).
Hypothesis HH0 : completes E Xs Ys H0.
Hypothesis HX : forall H b, In (H, b) l -> near_minimal T d C (combine Xs H) (bl_w bl b) 0 /\ Forall (latent_exact m T E d (bl_w bl b)) S0.
Local Notation vc := (visited_completes T E d ydiff m bl Xs Ys C 0 HL k Hi H0 l stop EF HH0 HX).
Local Notation vl := (visited_latent T E d m bl Xs Ys C 0 HL l HX).

Lemma same_differ H : completes E Xs Ys H -> LatentSSVMSpec.differ ydiff H H = false.
Proof.
  intro Q. apply differ_refl. intros h Hh. unfold completes in Q. clear - Q HR Hh. revert HR. induction Q as [|p a S H' Q1 Q IH]; [destruct Hh|]. intro HR. destruct Hh as [<-|Hh].
  - exact (HR p a (or_introl eq_refl) Q1).
  - apply (IH Hh). intros q u Hq. apply HR. right. exact Hq.
Qed.
Lemma exact_changes i j H b H' b' : (i < j)%nat -> nth_error l i = Some (H, b) -> nth_error l j = Some (H', b') -> H <> H'.
Proof.
  intros Hij Ei Ej ->. destruct (fit_trace ydiff m bl Xs Ys k Hi H0 l stop EF) as [_ [_ [_ [_ [_ [A2 _]]]]]].
  assert (Ni := nth_error_In _ _ Ei). assert (Nj := nth_error_In _ _ Ej).
  assert (W : bl_w bl b = bl_w bl b').
  { apply same_weights; [rewrite (visited_length T E d m bl Xs Ys C 0 l HX _ _ Ni), (visited_length T E d m bl Xs Ys C 0 l HX _ _ Nj); reflexivity|].
    assert (Q := near_close T d (lm_s m) C (combine Xs H') (bl_w bl b) (bl_w bl b') 0 0 HC (visited_oracle T E d ydiff m bl Xs Ys C 0 HL HE k Hi H0 l stop EF HH0 HX _ _ Ni) (proj1 (HX _ _ Ni)) (proj1 (HX _ _ Nj))).
    assert (P := normsq_nonneg (vsub (bl_w bl b) (bl_w bl b'))). apply Qcle_antisym; [|exact P]. replace 0 with (ofN 4 * (0 + 0)) by ring. exact Q. }
  destruct (nth_error l (S i)) as [[H1 b1]|] eqn:E1.
  2:{ apply nth_error_None in E1. assert (j < length l)%nat by (apply nth_error_Some; congruence). lia. }
  assert (N1 := nth_error_In _ _ E1). destruct (vl _ _ Ni) as [gs G]. destruct (vl _ _ N1) as [g1 G1].
  assert (G' : latent_hinges T E (bl_w bl b') S0 gs) by (rewrite <- W; exact G).
  assert (S1 := step_moves T E d ydiff m bl Xs Ys C 0 HL HC HO HE k Hi H0 l stop EF HH0 HX _ _ _ _ gs g1 (successive_nth l i _ _ Ei E1) G G1).
  replace j with (S i + (j - S i))%nat in Ej by lia.
  assert (S2 := steps_move T E d ydiff m bl Xs Ys C 0 HL HC HO HE k Hi H0 l stop EF HH0 HX (S i) (j - S i) _ _ _ _ g1 gs E1 Ej G1 G').
  assert (S3 : 0 <= sumn (j - S i) (fun t => moved (bl_w bl) l (S i + t))) by (apply sumn_nonneg; intros t _; apply normsq_nonneg).
  rewrite <- W in S2. assert (D0 : normsq (vsub (bl_w bl b1) (bl_w bl b)) = 0).
  { apply Qcle_antisym; [|apply normsq_nonneg]. set (D := normsq (vsub (bl_w bl b1) (bl_w bl b))) in *. set (s := sumn _ _) in *. set (p := primal_value C (bl_w bl b) gs) in *. set (p1 := primal_value C (bl_w bl b1) g1) in *. set (c := ofN (j - S i)) in *. clearbody D s p p1 c. clear - S1 S2 S3.
    replace (c * (0 + 0)) with 0 in S2 by ring. assert (K : forall u, u = ofN 4 * (u / ofN 4)) by (intro u; field; intro Q; apply (f_equal this) in Q; vm_compute in Q; discriminate).
    rewrite (K D). rewrite (K s) in S3. set (D4 := D / ofN 4) in *. set (s4 := s / ofN 4) in *. clearbody D4 s4. clear K.
    assert (Z : 0 <= s4). { assert (P4 : 0 < ofN 4) by (apply ofN_pos; lia). clear - S3 P4. apply Qcnot_lt_le. intro Q. assert (ofN 4 * s4 < 0); [|qclra]. replace 0 with (ofN 4 * 0) by ring. rewrite !(Qcmult_comm (ofN 4)). apply Qcmult_lt_compat_r; assumption. }
    apply Qcle_trans with (0 * ofN 4); [|rewrite Qcmult_0_l; apply Qcle_refl]. rewrite (Qcmult_comm (ofN 4)). apply Qcmult_le_compat_r; [|apply ofN_nonneg]. clear S3. qclra. }
  assert (W1 : bl_w bl b1 = bl_w bl b) by (apply same_weights; [rewrite (visited_length T E d m bl Xs Ys C 0 l HX _ _ Ni), (visited_length T E d m bl Xs Ys C 0 l HX _ _ N1); reflexivity|exact D0]).
  destruct (A2 _ _ (successive_nth l i _ _ Ei E1)) as [I1 [I2 _]]. cbn [fst snd] in I1, I2.
  destruct (Nat.eq_dec j (S i)) as [->|Hne].
  - replace (S i + (S i - S i))%nat with (S i) in Ej by lia. assert (H1 = H') by congruence. subst H1. rewrite (same_differ H' (vc _ _ Ni)) in I2. discriminate.
  - destruct (nth_error l (S (S i))) as [[H2 b2]|] eqn:E2.
    2:{ apply nth_error_None in E2. assert (S i + (j - S i) < length l)%nat by (apply nth_error_Some; congruence). lia. }
    destruct (A2 _ _ (successive_nth l (S i) _ _ E1 E2)) as [J1 [J2 _]]. cbn [fst snd] in J1, J2. rewrite W1 in J1. assert (H2 = H1) by exact (completed_unique m _ Xs Ys H2 H1 J1 I1). subst H2.
    rewrite (same_differ H1 (vc _ _ N1)) in J2. discriminate.
Qed.
Lemma exact_no_repeat : NoDup (map fst l).
Proof.
  apply NoDup_nth_error. intros i j Hi' Eij. rewrite map_length in Hi'.
  destruct (nth_error l i) as [[H b]|] eqn:Ei; [|apply nth_error_None in Ei; lia].
  rewrite nth_error_map, Ei in Eij. cbn in Eij. rewrite nth_error_map in Eij. destruct (nth_error l j) as [[H' b']|] eqn:Ej; [|discriminate]. cbn in Eij. injection Eij as <-.
  destruct (Nat.lt_trichotomy i j) as [Q|[Q|Q]]; [exfalso|exact Q|exfalso].
  - exact (exact_changes i j _ _ _ _ Q Ei Ej eq_refl).
  - exact (exact_changes j i _ _ _ _ Q Ej Ei eq_refl).
Qed.
Lemma exact_ends (cs : list (list Y)) : Forall2 (fun p c => forall h, E (fst p) (snd p) h -> In h c) S0 cs ->
  (length l <= product (map (@length Y) cs))%nat /\ ((product (map (@length Y) cs) < k)%nat -> stop = NoChange).
Proof.
  intro HS. assert (A : (length l <= product (map (@length Y) cs))%nat).
  { rewrite <- choices_length, <- (map_length fst l). apply NoDup_incl_length; [exact exact_no_repeat|]. intros H Q. apply in_map_iff in Q. destruct Q as [[H' b] [<- Q]]. cbn [fst].
    assert (HH := vc _ _ Q). apply in_choices. unfold completes in HH. clear - HS HH. revert H' HH. induction HS as [|p c S cs Q HS IH]; intros H' HH; inversion HH; subst; constructor; auto. }
  split; [exact A|]. intro Hk. destruct stop eqn:ES; [reflexivity|]. destruct (fit_trace ydiff m bl Xs Ys k Hi H0 l _ EF) as [_ [_ [A3 _]]]. specialize (A3 eq_refl). lia.
Qed.
End exact.

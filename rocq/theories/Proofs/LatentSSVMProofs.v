(** The loop of LatentSSVM: trace, descent, fixed points. *)
From Verif Require Import Model.LatentSSVM Proofs.Arrays Proofs.LossProofs Proofs.LearnerProofs Proofs.OneSlackCache Proofs.OneSlackProofs2
  Proofs.LatentProofs4 Spec.LatentSSVMSpec.

Section loop.
Context {X Y B : Type} (ydiff : Y -> Y -> bool) (m : lmodel X Y) (bl : base_learner X Y B).
Variables (Xs : list X) (Ys : list Y).
Notation S0 := (combine Xs Ys).
Local Notation differ := (LatentSSVMSpec.differ ydiff).
Local Notation iterates := (LatentSSVMSpec.iterates ydiff m bl Xs Ys).
Fixpoint chained (q : list Y * B) (l : list (list Y * B)) : Prop :=
  match l with
  | [] => True
  | q' :: r => iterates q q' /\ chained q' r
  end.
Lemma chained_successive l : forall q a b, chained q l -> successive (q :: l) a b -> iterates a b.
Proof.
  induction l as [|q' r IH]; intros q a b H [pre [post E]].
  - destruct pre as [|x [|y pre]]; discriminate.
  - destruct H as [H1 H2]. destruct pre as [|x pre].
    + injection E as -> -> _. exact H1.
    + injection E as -> E. apply (IH q' a b H2). exists pre, post. exact E.
Qed.
Lemma completed_mapM w H : mapM (fun p => lm_latent m (fst p) (snd p) w) S0 = Ok H <-> completed_at m w Xs Ys H.
Proof.
  split; [apply mapM_Forall2|]. unfold completed_at. induction 1 as [|p h l r HP HF IH]; [reflexivity|]. cbn [mapM]. rewrite HP. cbn [bind]. rewrite IH. reflexivity.
Qed.

Lemma loop_trace k : forall b H l stop, cccp_loop ydiff m bl Xs Ys k b H = Ok (l, stop) <->
  chained (H, b) l /\ (length l <= k)%nat /\
  match stop with
  | NoChange => (length l < k)%nat /\ exists Hn, completed_at m (bl_w bl (snd (last l (H, b)))) Xs Ys Hn /\ differ Hn (fst (last l (H, b))) = false
  | LatentIter => length l = k
  end.
Proof.
  induction k as [|k IH]; intros b H l stop; cbn [cccp_loop].
  - split.
    + intro E. injection E as <- <-. cbn. auto.
    + intros [H1 [H2 H3]]. destruct l; [|cbn in H2; lia]. destruct stop; [cbn in H3; lia|reflexivity].
  - split.
    + intro E. apply bind_ok in E. destruct E as [Hn [E1 E]]. apply completed_mapM in E1. fold (differ Hn H) in E.
      destruct (differ Hn H) eqn:ED; cbn [negb] in E.
      * apply bind_ok in E. destruct E as [cs [E2 E]]. apply bind_ok in E. destruct E as [b' [E3 E]].
        apply bind_ok in E. destruct E as [[l' s'] [E4 E]]. injection E as <- <-. apply IH in E4. destruct E4 as [C1 [C2 C3]]. cbn [fst snd].
        split; [|split].
        -- cbn [chained]. split; [|exact C1]. split; [exact E1|]. split; [exact ED|]. exists cs. split; [|exact E3]. cbn [snd fst] in *.
           destruct (bl_cons bl b) as [old|]; [|injection E2 as <-; reflexivity]. apply bind_ok in E2. destruct E2 as [c [E2 E5]]. exists c. split; [exact E2|congruence].
        -- cbn [length]. lia.
        -- assert (EL : forall d, last ((Hn, b') :: l') d = last l' (Hn, b')).
           { clear. generalize (Hn, b'). induction l' as [|a l' IH]; intros q d; [reflexivity|]. change (last (q :: a :: l') d) with (last (a :: l') d).
             rewrite (IH a d). symmetry. exact (IH a q). }
           rewrite EL. destruct s'; cbn [length]; [|lia]. destruct C3 as [C3 C4]. split; [lia|exact C4].
      * injection E as <- <-. cbn [chained length last snd fst]. split; auto. split; [lia|]. split; [lia|]. exists Hn. auto.
    + intros [H1 [H2 H3]]. destruct l as [|[Hn b'] l'].
      * destruct stop; [|cbn in H3; discriminate]. destruct H3 as [_ [Hn [E1 ED]]]. cbn [last fst snd] in *. apply completed_mapM in E1. rewrite E1. cbn [bind].
        fold (differ Hn H). rewrite ED. reflexivity.
      * destruct H1 as [[E1 [ED [cs [E2 E3]]]] H1]. cbn [fst snd] in *. apply completed_mapM in E1. rewrite E1. cbn [bind]. fold (differ Hn H). rewrite ED. cbn [negb].
        assert (E4 : cccp_loop ydiff m bl Xs Ys k b' Hn = Ok (l', stop)).
        { apply IH. split; [exact H1|]. cbn [length] in H2, H3. split; [lia|].
          assert (EL : forall d, last ((Hn, b') :: l') d = last l' (Hn, b')).
          { clear. generalize (Hn, b'). induction l' as [|a l' IH]; intros q d; [reflexivity|]. change (last (q :: a :: l') d) with (last (a :: l') d).
            rewrite (IH a d). symmetry. exact (IH a q). }
          rewrite EL in H3. destruct stop; [|lia]. destruct H3 as [H3 H4]. split; [lia|exact H4]. }
        destruct (bl_cons bl b) as [old|].
        -- destruct E2 as [c [E2 ->]]. rewrite E2. cbn [bind]. rewrite E3. cbn [bind]. rewrite E4. reflexivity.
        -- subst cs. cbn [bind]. rewrite E3. cbn [bind]. rewrite E4. reflexivity.
Qed.
Lemma last_cons {A} (q : A) l d : last (q :: l) d = last l q.
Proof.
  revert q d. induction l as [|a l IH]; intros q d; [reflexivity|]. change (last (q :: a :: l) d) with (last (a :: l) d).
  rewrite (IH a d). symmetry. exact (IH a q).
Qed.
Lemma fit_trace k Hi H0 l stop : cccp_fit ydiff m bl Xs Ys k Hi = Ok (H0, l, stop) ->
  (match Hi with Some H => H0 = H | None => lm_init m S0 = Ok H0 end) /\
  (length l <= k)%nat /\ (stop = LatentIter -> length l = k) /\
  (l = [] <-> k = O) /\
  (forall q l', l = q :: l' -> fst q = H0 /\ bl_fit bl Xs H0 = Ok (snd q)) /\
  (forall q q', successive l q q' -> iterates q q') /\
  (stop = NoChange -> (length l < k)%nat /\ exists pre H b Hn, l = pre ++ [(H, b)] /\ completed_at m (bl_w bl b) Xs Ys Hn /\ differ Hn H = false).
Proof.
  intro E. unfold cccp_fit in E. apply bind_ok in E. destruct E as [H1 [EI E]].
  assert (EH : match Hi with Some H => H1 = H | None => lm_init m S0 = Ok H1 end) by (destruct Hi; congruence).
  destruct k as [|k].
  - injection E as <- <- <-. split; [exact EH|]. split; [cbn; lia|]. split; [reflexivity|]. split; [split; reflexivity|].
    split; [intros q l' Eq; discriminate Eq|].
    split; [intros q q' [pre [post Eq]]; destruct pre; discriminate Eq|]. intro Eq. discriminate Eq.
  - apply bind_ok in E. destruct E as [b [EF E]]. apply bind_ok in E. destruct E as [[l' s'] [EL E]]. injection E as <- <- <-.
    apply loop_trace in EL. destruct EL as [C1 [C2 C3]]. cbn [fst snd]. split; [exact EH|].
    split; [cbn; lia|]. split. { intros ->. cbn. lia. } split; [split; discriminate|].
    split. { intros q l0 Eq. injection Eq as <- _. cbn. auto. }
    split. { intros q q'. apply chained_successive. exact C1. }
    intros ->. destruct C3 as [C3 [Hn [C4 C5]]]. split; [cbn; lia|].
    destruct (last l' (H1, b)) as [H b0] eqn:ELL. cbn [fst snd] in *.
    exists (removelast ((H1, b) :: l')), H, b0, Hn. split; [|auto].
    rewrite <- ELL, <- (last_cons (H1, b) l' (H1, b)). apply app_removelast_last. discriminate.
Qed.
(** an invariant of the base learner along the run *)
Lemma trace_inv (P : list Y -> B -> Prop) k Hi H0 l stop : cccp_fit ydiff m bl Xs Ys k Hi = Ok (H0, l, stop) ->
  (forall b, bl_fit bl Xs H0 = Ok b -> P H0 b) ->
  (forall H b H' b', P H b -> iterates (H, b) (H', b') -> P H' b') ->
  forall H b, In (H, b) l -> P H b.
Proof.
  intros E HF HS. destruct (fit_trace _ _ _ _ _ E) as [_ [_ [_ [_ [A1 [A2 _]]]]]].
  assert (A3 : match l with [] => True | q :: _ => P (fst q) (snd q) end).
  { destruct l as [|q l']; auto. destruct (A1 q l' eq_refl) as [<- A3]. apply HF. exact A3. }
  clear E A1 HF. induction l as [|[H1 b1] l IH]; intros H b HI; [destruct HI|].
  destruct HI as [HI|HI]; [injection HI as <- <-; exact A3|]. apply IH; [| |exact HI].
  - intros q q' [pre [post Eq]]. apply A2. exists ((H1, b1) :: pre), post. cbn. congruence.
  - destruct l as [|[H2 b2] l]; auto. cbn [fst snd]. apply (HS H1 b1); [exact A3|]. apply A2. exists [], l. reflexivity.
Qed.
End loop.

Lemma F2_left {A B} (R : A -> B -> Prop) a l r : Forall2 R (a :: l) r -> exists b r', r = b :: r' /\ R a b /\ Forall2 R l r'.
Proof. intro H. inversion H as [|a' b l' r' HR HF]. exists b, r'. auto. Qed.
Lemma F2_nil {A B} (R : A -> B -> Prop) r : Forall2 R [] r -> r = [].
Proof. intro H. inversion H. reflexivity. Qed.
(** ** descent *)
Section descent.
Context {X Y : Type} (T : task X Y) (E : X -> Y -> Y -> Prop) (d : nat) (m : lmodel X Y).
(** completing at w: the completed hinges at w exist and are the latent ones *)
Lemma completed_hinges w : forall Xs Ys H, length w = d -> Forall (latent_exact m T E d w) (combine Xs Ys) -> length Xs = length Ys ->
  completed_at m w Xs Ys H -> exists hs, hinges T w (combine Xs H) hs /\ latent_hinges T E w (combine Xs Ys) hs /\ completes E Xs Ys H.
Proof.
  induction Xs as [|x Xs IH]; intros [|y Ys] H Hw HX HL HC; try discriminate HL.
  - apply F2_nil in HC. subst H. exists []. repeat split; constructor.
  - unfold completed_at in HC. cbn [combine] in HC. apply F2_left in HC. destruct HC as [h [H' [-> [C1 C2]]]]. cbn [combine] in HX. apply Forall_cons_iff in HX. destruct HX as [X1 X2].
    destruct (IH Ys H' Hw X2 ltac:(cbn in HL; lia) C2) as [hs [A1 [A2 A3]]].
    destruct X1 as [[_ [I1 _]] [[h0 [E1 HB]] HA]]. cbn [fst snd] in *. assert (h0 = h) by congruence. subst h0.
    destruct (find_constraint_hinge (lm_s m) T d x h w (I1 h (proj1 HB)) Hw (HA h (proj1 HB))) as [hh [v [_ [_ [_ [_ [_ HV]]]]]]].
    exists (v :: hs). cbn [combine]. repeat split; constructor; auto.
    + exists h. split; [exact HB|exact HV].
    + exact (proj1 HB).
Qed.
Lemma latent_hinges_unique w S : observed_loss T E S -> forall hs hs', latent_hinges T E w S hs -> latent_hinges T E w S hs' -> hs = hs'.
Proof.
  intros HO hs hs' H. revert hs' HO. unfold latent_hinges in *. induction H as [|p v l r HP HF IH]; intros hs' HO H'; inversion H' as [|p0 v' l0 r' P' F']; subst; [reflexivity|].
  f_equal.
  - apply (latent_unique T E w (fst p) (snd p) v v'); auto. intros h h' z. apply (HO p). left. reflexivity.
  - apply IH; auto. intros q h h' z Hq. apply (HO q). right. exact Hq.
Qed.
Lemma latent_exists w : forall Xs Ys, length w = d -> Forall (latent_exact m T E d w) (combine Xs Ys) -> length Xs = length Ys ->
  exists gs, latent_hinges T E w (combine Xs Ys) gs.
Proof.
  intros Xs Ys Hw HX HL.
  assert (HC : exists H, completed_at m w Xs Ys H).
  { unfold completed_at. induction HX as [|p l [_ [[h [E1 _]] _]] HX IH]; [exists []; constructor|]. destruct IH as [H IH]. exists (h :: H). constructor; auto. }
  destruct HC as [H HC]. destruct (completed_hinges w Xs Ys H Hw HX HL HC) as [hs [_ [A _]]]. eauto.
Qed.
Lemma step_descends C eps Xs Ys w w' H' : length w = d -> length w' = d -> length Xs = length Ys ->
  Forall (latent_exact m T E d w) (combine Xs Ys) -> Forall (latent_exact m T E d w') (combine Xs Ys) ->
  completed_at m w Xs Ys H' ->
  (forall gs hs, latent_hinges T E w' (combine Xs Ys) gs -> hinges T w (combine Xs H') hs -> primal_value C w' gs <= primal_value C w hs + eps) ->
  latent_descends T E C eps (combine Xs Ys) w w'.
Proof.
  intros Hw Hw' HL HX HX' HC HB. destruct (completed_hinges w Xs Ys H' Hw HX HL HC) as [hs [A1 [A2 _]]].
  destruct (latent_exists w' Xs Ys Hw' HX' HL) as [gs A3]. exists hs, gs. auto.
Qed.
(** the latent objective is below the completed one *)
Lemma latent_le_completed w : forall Xs Ys H gs hs, length Xs = length Ys -> completes E Xs Ys H -> observed_loss T E (combine Xs Ys) ->
  latent_hinges T E w (combine Xs Ys) gs -> hinges T w (combine Xs H) hs -> lsum gs <= lsum hs.
Proof.
  induction Xs as [|x Xs IH]; intros [|y Ys] H gs hs HL HC HO HG HH; try discriminate HL.
  - inversion HG; subst. inversion HH; subst. apply Qcle_refl.
  - cbn [combine] in *. inversion HC as [|p h l H' C1 C2]; subst. cbn [combine] in HH.
    inversion HG as [|p1 g l1 gs' G1 G2]; subst. inversion HH as [|p2 v l2 hs' V1 V2]; subst. cbn [fst snd] in *.
    assert (A := IH Ys H' gs' hs' ltac:(cbn in HL; lia) C2 ltac:(intros q h1 h2 z Hq; apply (HO q); right; exact Hq) G2 V2).
    assert (A1 : g <= v). { apply (latent_le_hinge T E w x y h g v C1); auto. intros h1 h2 z. apply (HO (x, y)). left. reflexivity. }
    change (lsum (g :: gs')) with (g + lsum gs'). change (lsum (v :: hs')) with (v + lsum hs'). apply Qcplus_le_compat; auto.
Qed.
Lemma primal_mono C w gs hs : 0 <= C -> lsum gs <= lsum hs -> primal_value C w gs <= primal_value C w hs.
Proof.
  intros HC HL. unfold primal_value. apply Qcplus_le_compat; [|apply Qcle_refl]. rewrite !(Qcmult_comm C). apply Qcmult_le_compat_r; auto.
Qed.
End descent.

(** What primal_objective_curve_ records: the n-slack learner. *)
From Coq Require Import ZArith.
From Verif Require Import Model.NSlack Spec.NSlackSpec Proofs.Arrays Proofs.LossProofs Proofs.LearnerProofs
  Proofs.QPProofs Proofs.QPProofs2 Proofs.NSlackProofs Proofs.NSlackProofs2 Proofs.NSlackProofs3 Proofs.NSlackProofs4 Proofs.Alike.

Lemma lsum_split k : forall l : list Qc, lsum l = lsum (firstn k l) + lsum (skipn k l).
Proof. induction k as [|k IH]; intros [|a l]; cbn [firstn skipn]; rewrite ?lsum_cons; try (change (lsum []) with 0; ring). rewrite (IH l). ring. Qed.
Lemma last_from {A} (l : list A) : forall a b, last (a :: l) b = last l a.
Proof. induction l as [|x l IH]; intros a b; [reflexivity|]. change (last (a :: x :: l) b) with (last (x :: l) b). rewrite !IH. reflexivity. Qed.
Lemma skipn_add {A} a : forall b (l : list A), skipn (a + b) l = skipn b (skipn a l).
Proof. induction a as [|a IH]; intros b [|x l]; cbn [Nat.add skipn]; auto. destruct b; reflexivity. Qed.
Lemma slices_total (hs : list Qc) q packs : forall start rest, (start + packs * q + rest = length hs)%nat -> (rest <= packs)%nat ->
  lsum (map (fun b => lsum (slice (fst b) (snd b) hs)) (even_slices_from start (length hs) q rest packs)) = lsum (skipn start hs).
Proof.
  induction packs as [|k IH]; intros start rest E R; cbn [even_slices_from].
  - assert (rest = O) by lia. subst rest. rewrite skipn_all2 by lia. reflexivity.
  - set (len := (q + (if (0 <? rest)%nat then 1 else 0))%nat).
    assert (EL : (len <= length hs - start /\ start + len + k * q + (rest - 1) = length hs /\ rest - 1 <= k)%nat).
    { unfold len. destruct (Nat.ltb_spec 0 rest); split; [nia|split; nia|nia|split; nia]. }
    destruct EL as [L1 [L2 L3]]. destruct (Nat.ltb_spec 0 len) as [P|P].
    + rewrite Nat.min_r by lia. cbn [map fst snd]. rewrite lsum_cons, IH by lia. unfold slice. replace (start + len - start)%nat with len by lia.
      rewrite skipn_add. symmetry. apply lsum_split.
    + assert (E0 : len = O) by lia. apply IH; lia.
Qed.
Lemma batches_total z (hs : list Qc) bs : batch_slices z (length hs) = Ok bs ->
  lsum (map (fun b => lsum (slice (fst b) (snd b) hs)) bs) = lsum hs.
Proof.
  unfold batch_slices, gen_even_slices. destruct (_ && _)%bool; [discriminate|].
  set (b := if (z =? -1)%Z then length hs else Z.to_nat z). destruct (b =? 0)%nat; [discriminate|].
  set (packs := ((length hs + b - 1) / b)%nat). destruct (Nat.ltb_spec packs 1) as [P|P]; [discriminate|]. intros H. injection H as <-.
  rewrite slices_total; [reflexivity| |].
  - cbn [Nat.add]. symmetry. rewrite (Nat.mul_comm packs). rewrite Nat.mul_comm. apply Nat.div_mod. lia.
  - assert (length hs mod packs < packs)%nat by (apply Nat.mod_upper_bound; lia). lia.
Qed.

Section curve.
Context {X Y : Type} (T : task X Y) (d : nat) (yeq : Y -> Y -> bool) (solve : qp_solver) (prm : ns_params).
Variables (Xs : list X) (Ys : list Y).
Hypothesis HC : 0 <= ns_C prm.
Hypothesis HXY : length Xs = length Ys.
Hypothesis HS : qp_sound solve.
Notation S0 := (combine Xs Ys).

Lemma gather_slacks w cands : forall (cs : list (list (ncon Y))) new sl cs' new' sl',
  gather yeq prm w cands cs new sl = Ok (cs', new', sl') -> sl' = sl + lsum (map (fun c => snd (fst (snd c))) cands).
Proof.
  induction cands as [|[i [[[yh dl] slack] loss]] cands IH]; intros cs new sl cs' new' sl' H; cbn [gather] in H.
  - injection H as <- <- <-. change (lsum (map _ [])) with 0. ring.
  - cbn [map fst snd]. rewrite lsum_cons.
    assert (G : sl' = sl + slack + lsum (map (fun c => snd (fst (snd c))) cands) -> sl' = sl + (slack + lsum (map (fun c => snd (fst (snd c))) cands))) by (intros ->; ring).
    apply G. clear G. destruct (negb (Qcltb 0 loss)); [eapply IH; eauto|]. apply bind_ok in H. destruct H as [old [_ H]].
    apply bind_ok in H. destruct H as [[] [_ H]]; [eapply IH; eauto|]. apply bind_ok in H. destruct H as [cs1 [_ H]]. eapply IH; eauto.
Qed.
Lemma cands_sum (m : smodel X Y) w S cands : (forall p, In p S -> implements m T d (fst p) (snd p) /\ forall w, length w = d -> exact_laug m T w (fst p) (snd p)) ->
  length w = d -> mapM (fun p => find_constraint m (fst p) (snd p) w None true) S = Ok cands ->
  forall hs, hinges T w S hs -> length cands = length S /\ lsum (map (fun c => snd (fst c)) cands) = lsum hs.
Proof.
  intros HO Hw. revert cands. induction S as [|p S IH]; intros cands H hs HH; cbn [mapM] in H.
  - injection H as <-. inversion HH. auto.
  - apply bind_ok in H. destruct H as [v [E1 H]]. apply bind_ok in H. destruct H as [vs [E2 H]]. injection H as <-.
    destruct hs as [|h hs']; [inversion HH|].
    assert (HH2 : is_hinge T w (fst p) (snd p) h /\ hinges T w S hs') by (inversion HH; split; assumption). destruct HH2 as [Hh HH'].
    destruct (IH (fun q Hq => HO q (or_intror Hq)) vs E2 hs' HH') as [L1 L2]. destruct (HO p (or_introl eq_refl)) as [HI HE].
    destruct (find_constraint_hinge m T d (fst p) (snd p) w HI Hw (HE w Hw)) as [yh [s [E [_ [_ [_ [_ IHg]]]]]]].
    rewrite E in E1. injection E1 as <-. cbn [length map fst snd]. rewrite !lsum_cons, L1, L2. split; auto. f_equal. eapply is_hinge_unique; eauto.
Qed.
Lemma map_snd_combine {A B} (l : list A) : forall r : list B, (length r <= length l)%nat -> map snd (combine l r) = r.
Proof. induction l as [|a l IH]; intros [|b r] H; cbn [combine map snd length] in *; try reflexivity; try lia. f_equal. apply IH. lia. Qed.
Lemma slice_len_le {A} a b (l : list A) : (length (slice a b l) <= b - a)%nat.
Proof. unfold slice. rewrite firstn_length. lia. Qed.

Lemma batch_slacks (m : smodel X Y) b st sl st' new sl' hs : oracle_exact m T d S0 -> length (st_w st) = d -> hinges T (st_w st) S0 hs ->
  ns_batch_step yeq solve prm m S0 (length Xs) b st sl = Ok (st', new, sl') -> sl' = sl + lsum (slice (fst b) (snd b) hs).
Proof.
  intros HO Hw HH H. unfold ns_batch_step in H. apply bind_ok in H. destruct H as [cands [E H]].
  apply bind_ok in H. destruct H as [[[cs nw] s1] [EG H]]. apply gather_slacks in EG.
  assert (INC : forall p, In p (slice (fst b) (snd b) S0) -> In p S0).
  { unfold slice. intros p Hp. rewrite <- (firstn_skipn (fst b) S0). apply in_or_app. right.
    rewrite <- (firstn_skipn (snd b - fst b) (skipn (fst b) S0)). apply in_or_app. left. exact Hp. }
  destruct (cands_sum m (st_w st) (slice (fst b) (snd b) S0) cands (fun p Hp => HO p (INC p Hp)) Hw E (slice (fst b) (snd b) hs) (Forall2_slice _ _ _ _ _ HH)) as [L1 L2].
  assert (ES : s1 = sl + lsum (slice (fst b) (snd b) hs)).
  { rewrite EG. f_equal. rewrite <- L2. f_equal. rewrite <- (map_map snd (fun c : Y * list Qc * Qc * Qc => snd (fst c))). rewrite map_snd_combine; [reflexivity|].
    rewrite L1, seq_length. apply slice_len_le. }
  destruct (nw =? 0)%nat; [injection H as <- <- <-; exact ES|]. apply bind_ok in H. destruct H as [[[[w obj] cs1] act] [_ H]]. injection H as <- <- <-. exact ES.
Qed.
Lemma quiet_slacks (m : smodel X Y) bs : oracle_exact m T d S0 -> forall st new sl sl' hs, length (st_w st) = d -> hinges T (st_w st) S0 hs ->
  ns_batches yeq solve prm m S0 (length Xs) bs st new sl = Ok (st, new, sl') -> sl' = sl + lsum (map (fun b => lsum (slice (fst b) (snd b) hs)) bs).
Proof.
  intro HO.
  assert (MON : forall bs (st : ns_state Y) new sl st' new' sl', ns_batches yeq solve prm m S0 (length Xs) bs st new sl = Ok (st', new', sl') -> (new <= new')%nat).
  { clear. induction bs; intros st new sl st' new' sl' H; cbn [ns_batches] in H. { injection H as <- <- <-. lia. }
    apply bind_ok in H. destruct H as [[[st1 k] sl1] [_ H]]. apply IHbs in H. lia. }
  assert (KEEP : forall b (st : ns_state Y) sl st' sl', ns_batch_step yeq solve prm m S0 (length Xs) b st sl = Ok (st', O, sl') -> st_w st' = st_w st).
  { clear. intros b st sl st' sl' H. unfold ns_batch_step in H. apply bind_ok in H. destruct H as [cands [_ H]].
    apply bind_ok in H. destruct H as [[[cs nw] s1] [_ H]]. destruct (Nat.eqb_spec nw 0) as [E|NE]; [injection H as <- _; reflexivity|].
    apply bind_ok in H. destruct H as [[[[w obj] cs1] act] [_ H]]. injection H as _ E _. contradiction. }
  assert (G : forall bs st new sl st' sl' hs, length (st_w st) = d -> hinges T (st_w st) S0 hs ->
     ns_batches yeq solve prm m S0 (length Xs) bs st new sl = Ok (st', new, sl') -> sl' = sl + lsum (map (fun b => lsum (slice (fst b) (snd b) hs)) bs)).
  { clear bs. induction bs as [|b bs IH]; intros st new sl st' sl' hs Hw HH H; cbn [ns_batches] in H.
    - injection H as _ <-. change (lsum (map _ [])) with 0. ring.
    - apply bind_ok in H. destruct H as [[[st1 k] sl1] [E H]]. assert (M := MON _ _ _ _ _ _ _ H). assert (k = O) by lia. subst k.
      assert (EW := KEEP _ _ _ _ _ E). assert (ES := batch_slacks m b st sl st1 O sl1 hs HO Hw HH E). rewrite Nat.add_0_r in H.
      rewrite <- EW in Hw, HH. rewrite (IH _ _ _ _ _ hs Hw HH H), ES. cbn [map]. rewrite lsum_cons. ring. }
  intros st new sl sl' hs Hw HH H. exact (G bs st new sl st sl' hs Hw HH H).
Qed.

Lemma exact_hinges_all (m : smodel X Y) w : oracle_exact m T d S0 -> length w = d -> exists hs, hinges T w S0 hs.
Proof.
  unfold oracle_exact, hinges. generalize S0. intros S HO Hw. induction S as [|p S IH]; [exists []; constructor|].
  destruct (IH (fun q Hq => HO q (or_intror Hq))) as [hs H]. destruct (HO p (or_introl eq_refl)) as [HI HE].
  destruct (find_constraint_hinge m T d (fst p) (snd p) w HI Hw (HE w Hw)) as [yh [s [_ [_ [_ [_ [_ IHg]]]]]]]. exists (s :: hs). constructor; auto.
Qed.

Definition Q1 (w : list Qc) (o : Qc) (groups : list (list (list Qc * Qc))) : Prop := True.
Lemma HQ1 : forall (cs : list (list (ncon Y))) active w obj cs' active', Forall (fun c => length (fst c) = d) (concat (pairs cs)) ->
     solve_n_slack_qp solve prm (length Xs) cs active = Ok (w, obj, cs', active') ->
     length w = d /\ Q1 w obj (pairs cs) /\ Forall2 (fun s s' => incl s' s) cs cs'.
Proof. intros cs active w o cs' active' HF E. destruct (solve_sound solve prm _ d _ _ _ _ _ _ HS HC HF E) as [A [B [C0 D]]]. split; auto. split; [exact I|auto]. Qed.
Notation inv := (inv T d S0 Q1).

(** one entry per round, from the weights before to the weights after it *)
Fixpoint chain (w : list Qc) (es : list Qc) (ws : list (list Qc)) : Prop :=
  match es, ws with
  | [], [] => True
  | e :: es, w' :: ws => length w' = d /\ (exists hs, hinges T w S0 hs /\ e = ns_C prm * lsum hs + normsq w' / (1 + 1)) /\ chain w' es ws
  | _, _ => False
  end.
Lemma inv_batches (m : smodel X Y) bs st new sl st' new' sl' : oracle_exact m T d S0 -> inv st ->
  ns_batches yeq solve prm m S0 (length Xs) bs st new sl = Ok (st', new', sl') -> inv st' /\ (new' = new -> st' = st).
Proof.
  intros HO HI H. assert (HK := exact_is_ok _ _ _ _ HO).
  destruct (batches_inv T d yeq solve prm S0 (length Xs) (feat_len_ok T d m Xs Ys HK) (fun p Hp => proj1 (label_self_ok T d m Xs Ys HK p Hp)) Q1 HQ1 m bs HK st new sl st' new' sl' HI H) as [A [_ [B _]]].
  auto.
Qed.

Lemma loop_entries k : batch_slices (ns_batch prm) (length Xs) = Ok [(O, length Xs)] ->
  forall it (m : smodel X Y) sw st curve primal st' curve' primal' reason m',
  oracle_exact m T d S0 -> (forall m2, sw = Some m2 -> oracle_exact m2 T d S0) -> inv st ->
  ns_loop yeq solve prm S0 (length Xs) k it m sw st curve primal = Ok (st', curve', primal', reason, m') ->
  exists es ws, primal' = primal ++ es /\ chain (st_w st) es ws /\ last ws (st_w st) = st_w st' /\ oracle_exact m' T d S0 /\ inv st'.
Proof.
  intro EB1. induction k as [|k IH]; intros it m sw st curve primal st' curve' primal' reason m' HO HSW HI H; cbn [ns_loop] in H.
  - injection H as <- <- <- <- <-. exists [], []. rewrite app_nil_r. repeat (split; auto).
  - apply bind_ok in H. destruct H as [bs [EB H]]. assert (bs = [(O, length Xs)]) by congruence. subst bs.
    apply bind_ok in H. destruct H as [[[st1 new] sl] [EQ H]].
    destruct (inv_batches m _ _ _ _ _ _ _ HO HI EQ) as [I1 _].
    apply bind_ok in H. destruct H as [obj [EO H]].
    destruct (exact_hinges_all m (st_w st) HO (proj1 HI)) as [hs HH].
    assert (ESL : sl = lsum hs).
    { cbn [ns_batches] in EQ. apply bind_ok in EQ. destruct EQ as [[[st2 k2] sl2] [E2 EQ]]. injection EQ as _ _ <-.
      rewrite (batch_slacks m (O, length Xs) st 0 st2 k2 sl2 hs HO (proj1 HI) HH E2). cbn [fst snd]. unfold slice. cbn [skipn]. rewrite Nat.sub_0_r.
      rewrite firstn_all2; [ring|]. rewrite <- (Forall2_len _ _ _ HH), combine_length. lia. }
    subst sl. set (e := ns_C prm * lsum hs + normsq (st_w st1) / (1 + 1)) in *.
    assert (STEP : forall m2 sw2 k2 c2, oracle_exact m2 T d S0 -> (forall m3, sw2 = Some m3 -> oracle_exact m3 T d S0) ->
       ns_loop yeq solve prm S0 (length Xs) k k2 m2 sw2 st1 c2 (primal ++ [e]) = Ok (st', curve', primal', reason, m') ->
       exists es ws, primal' = primal ++ es /\ chain (st_w st) es ws /\ last ws (st_w st) = st_w st' /\ oracle_exact m' T d S0 /\ inv st').
    { intros m2 sw2 k2 c2 H2 H3 H4. destruct (IH _ _ _ _ _ _ _ _ _ _ _ H2 H3 I1 H4) as [es [ws [A1 [A2 [A3 [A4 A5]]]]]].
      exists (e :: es), (st_w st1 :: ws). split. { rewrite A1, <- app_assoc. reflexivity. }
      split. { cbn [chain]. split; [apply I1|]. split; [exists hs; auto|exact A2]. }
      split; [|auto]. rewrite last_from. exact A3. }
    destruct ((new =? 0)%nat || _)%bool eqn:STOP.
    + destruct sw as [m2|].
      * apply (STEP m2 None (Datatypes.S it) (curve ++ [obj])); auto. discriminate.
      * injection H as <- <- <- <- <-. exists [e], [st_w st1]. split; auto. split. { cbn [chain]. split; [apply I1|]. split; [exists hs; auto|exact I]. } auto.
    + apply (STEP m sw (Datatypes.S it) (curve ++ [obj])); auto.
Qed.

(** a run that ends because a pass added nothing *)
Lemma loop_quiet k : forall it (m : smodel X Y) sw st curve primal st' curve' primal' m',
  oracle_exact m T d S0 -> (forall m2, sw = Some m2 -> oracle_exact m2 T d S0) -> inv st ->
  ns_loop yeq solve prm S0 (length Xs) k it m sw st curve primal = Ok (st', curve', primal', NoNewConstraint, m') ->
  exists es hs, primal' = es ++ [primal_value (ns_C prm) (st_w st') hs] /\ hinges T (st_w st') S0 hs.
Proof.
  induction k as [|k IH]; intros it m sw st curve primal st' curve' primal' m' HO HSW HI H; cbn [ns_loop] in H; [discriminate|].
  apply bind_ok in H. destruct H as [bs [EB H]]. apply bind_ok in H. destruct H as [[[st1 new] sl] [EQ H]].
  destruct (inv_batches m _ _ _ _ _ _ _ HO HI EQ) as [I1 KEEP].
  apply bind_ok in H. destruct H as [obj [EO H]].
  destruct ((new =? 0)%nat || _)%bool eqn:STOP.
  - destruct sw as [m2|].
    + eapply IH; [| |exact I1|exact H]; [apply HSW; auto|discriminate].
    + injection H as <- <- <- HR <-. destruct (Nat.eqb_spec new 0) as [->|NE]; [|discriminate].
      rewrite (KEEP eq_refl) in *. destruct (exact_hinges_all m (st_w st) HO (proj1 HI)) as [hs HH].
      assert (LH : length hs = length Xs) by (rewrite <- (Forall2_len _ _ _ HH), combine_length; lia).
      exists primal, hs. split; [|exact HH]. f_equal. f_equal. unfold primal_value. f_equal. f_equal.
      rewrite (quiet_slacks m bs HO st O 0 sl hs (proj1 HI) HH EQ). rewrite <- LH in EB. rewrite (batches_total _ _ _ EB). ring.
  - eapply IH; [exact HO|exact HSW|exact I1|exact H].
Qed.

Lemma chain_nth es : forall w ws, chain w es ws -> length ws = length es /\ Forall (fun v => length v = d) ws /\
  forall i, (i < length es)%nat -> exists hs, hinges T (nth i (w :: ws) []) S0 hs /\ nth i es 0 = ns_C prm * lsum hs + normsq (nth (S i) (w :: ws) []) / (1 + 1).
Proof.
  induction es as [|e es IH]; intros w [|w' ws] H; cbn [chain] in H; try contradiction.
  - split; auto. split; [constructor|]. cbn [length]. intros i Hi. lia.
  - destruct H as [HL [H1 H2]]. destruct (IH w' ws H2) as [A [B C]]. cbn [length]. split; [lia|]. split; [constructor; auto|].
    intros [|i] Hi; [exact H1|]. destruct (C i) as [hs [C1 C2]]; [lia|]. exists hs. auto.
Qed.

Lemma ns_entries (m : smodel X Y) sw old st curve primal reason : sm_size m = d ->
  oracle_exact m T d S0 -> (forall m2, sw = Some m2 -> oracle_exact m2 T d S0) ->
  batch_slices (ns_batch prm) (length Xs) = Ok [(O, length Xs)] ->
  ns_fit yeq solve prm m sw Xs Ys None old = Ok (st, curve, primal, reason) ->
  exists ws, length ws = length primal /\ nth 0 ws [] = vzero d /\ nth (length primal - 1) ws [] = st_w st /\ Forall (fun v => length v = d) ws /\
    (forall i, (S i < length primal)%nat -> exists hs, hinges T (nth i ws []) S0 hs /\
       nth i primal 0 = primal_value (ns_C prm) (nth i ws []) hs + (normsq (nth (S i) ws []) - normsq (nth i ws [])) / (1 + 1)) /\
    exists hs, hinges T (st_w st) S0 hs /\ nth (length primal - 1) primal 0 = primal_value (ns_C prm) (st_w st) hs.
Proof.
  intros Hd HO HSW EB1 H. unfold ns_fit in H. cbn [bind] in H. apply bind_ok in H. destruct H as [[[[[st' cu] pr] re] m'] [EL H]].
  apply bind_ok in H. destruct H as [u [EN H]]. apply bind_ok in H. destruct H as [p [EP H]].
  apply bind_ok in H. destruct H as [obj [EO H]]. injection H as <- <- <- <-.
  assert (HK := exact_is_ok _ _ _ _ HO).
  destruct (loop_entries (ns_max_iter prm) EB1 O m sw _ [] [] st' cu pr re m' HO HSW (start_inv T d m Xs Ys HXY Hd Q1) EL) as [es [ws [A1 [A2 [A3 [A4 A5]]]]]].
  cbn [app] in A1. subst pr. cbn [st_w] in *. rewrite Hd in *. destruct (chain_nth es (vzero d) ws A2) as [B1 [B2 B3]].
  assert (NE : Xs <> []). { intros ->. clear - EB1. cbn in EB1. unfold batch_slices in EB1. destruct (_ && _)%bool; [discriminate|]. destruct (_ =? 0)%nat eqn:EZ; [discriminate|].
    apply Nat.eqb_neq in EZ. cbn [length] in EB1. set (b := if (ns_batch prm =? -1)%Z then 0%nat else Z.to_nat (ns_batch prm)) in *. rewrite Nat.div_small in EB1 by lia. discriminate. }
  destruct (objective_value m' T d (st_w st') Xs Ys (ns_C prm) NSlack HXY NE (proj1 A5)) as [hs2 [H2 EP2]].
  { intros q Hq. destruct (A4 q Hq) as [A B]. split; auto. apply B. apply A5. }
  exists (vzero d :: ws). rewrite app_length. cbn [length]. replace (length es + 1 - 1)%nat with (length es) by lia.
  split; [lia|]. split; [reflexivity|]. split.
  { rewrite <- A3. clear - B1. revert B1. generalize (vzero d). revert es. induction ws as [|w ws IH]; intros [|e es] v L; try discriminate; [reflexivity|].
    cbn [length nth]. injection L as L. rewrite last_from. apply IH. exact L. }
  split. { constructor; [apply vzero_length|exact B2]. }
  split.
  - intros i Hi. destruct (B3 i) as [hs [C1 C2]]; [lia|]. exists hs. split; auto. rewrite app_nth1 by lia. rewrite C2. unfold primal_value. field. discriminate.
  - exists hs2. split; [exact H2|]. rewrite app_nth2 by lia. rewrite Nat.sub_diag. cbn [nth]. congruence.
Qed.
Lemma ns_last_entries (m : smodel X Y) sw old st curve primal : sm_size m = d ->
  oracle_exact m T d S0 -> (forall m2, sw = Some m2 -> oracle_exact m2 T d S0) -> Xs <> [] ->
  ns_fit yeq solve prm m sw Xs Ys None old = Ok (st, curve, primal, NoNewConstraint) ->
  exists es hs, hinges T (st_w st) S0 hs /\ primal = es ++ [primal_value (ns_C prm) (st_w st) hs; primal_value (ns_C prm) (st_w st) hs].
Proof.
  intros Hd HO HSW NE H. unfold ns_fit in H. cbn [bind] in H. apply bind_ok in H. destruct H as [[[[[st' cu] pr] re] m'] [EL H]].
  apply bind_ok in H. destruct H as [u [EN H]]. apply bind_ok in H. destruct H as [p [EP H]].
  apply bind_ok in H. destruct H as [obj [EO H]]. injection H as <- <- <- ->.
  assert (HK := exact_is_ok _ _ _ _ HO).
  destruct (loop_quiet (ns_max_iter prm) O m sw _ [] [] st' cu pr m' HO HSW (start_inv T d m Xs Ys HXY Hd Q1) EL) as [es [hs [A1 A2]]].
  assert (LI := loop_inv T d yeq solve prm S0 (length Xs) (feat_len_ok T d m Xs Ys HK) (fun p Hp => proj1 (label_self_ok T d m Xs Ys HK p Hp)) Q1 HQ1
                  (ns_max_iter prm) O m sw _ [] [] _ HK (fun m2 E => exact_is_ok _ _ _ _ (HSW m2 E)) (start_inv T d m Xs Ys HXY Hd Q1) EL).
  destruct LI as [I1 [I2 _]]. assert (A4 : oracle_exact m' T d S0). { destruct I2 as [->|I2]; auto. }
  destruct (objective_value m' T d (st_w st') Xs Ys (ns_C prm) NSlack HXY NE (proj1 I1)) as [hs2 [H2 EP2]].
  { intros q Hq. destruct (A4 q Hq) as [A B]. split; auto. apply B. apply I1. }
  exists es, hs. split; auto. rewrite A1, <- app_assoc. cbn [app]. f_equal. f_equal. f_equal.
  assert (hs2 = hs). { clear - H2 A2. unfold hinges in *. revert hs A2. induction H2 as [|q h l r HP HF IH]; intros hs' H'; inversion H'; subst; auto. f_equal; auto. eapply is_hinge_unique; eauto. }
  congruence.
Qed.
End curve.

(** What primal_objective_curve_ of the n-slack learner records when a round has several batches. *)
From Coq Require Import ZArith.
From Verif Require Import Model.NSlack Spec.NSlackSpec Spec.BatchCurveSpec Proofs.Arrays Proofs.LossProofs Proofs.LearnerProofs
  Proofs.QPProofs Proofs.QPProofs2 Proofs.NSlackProofs Proofs.NSlackProofs2 Proofs.NSlackProofs3 Proofs.NSlackProofs4 Proofs.Alike Proofs.PrimalCurve
  Proofs.FrankWolfeProofs Proofs.FWRate.

Section curve.
Context {X Y : Type} (T : task X Y) (d : nat) (yeq : Y -> Y -> bool) (solve : qp_solver) (prm : ns_params).
Variables (Xs : list X) (Ys : list Y).
Hypothesis HC : 0 <= ns_C prm.
Hypothesis HXY : length Xs = length Ys.
Hypothesis HS : qp_sound solve.
Notation S0 := (combine Xs Ys).
Notation inv := (NSlackProofs2.inv T d S0 Q1).

Lemma round_losses (m : smodel X Y) bs : oracle_exact m T d S0 -> forall st new sl st' new' sl', inv st ->
  ns_batches yeq solve prm m S0 (length Xs) bs st new sl = Ok (st', new', sl') ->
  inv st' /\ exists vs r, batch_losses T S0 bs vs r /\ sl' = sl + r /\ Forall (fun v => length v = d) vs /\ (bs <> [] -> hd [] vs = st_w st).
Proof.
  intros HO. induction bs as [|b bs IH]; intros st new sl st' new' sl' HI H.
  - cbn [ns_batches] in H. injection H as <- <- <-. split; [exact HI|]. exists [], 0. split; [reflexivity|]. split; [ring|]. split; [constructor|congruence].
  - cbn [ns_batches] in H. apply bind_ok in H. destruct H as [[[st1 k] sl1] [E H]].
    assert (E1 : ns_batches yeq solve prm m S0 (length Xs) [b] st new sl = Ok (st1, (new + k)%nat, sl1)) by (cbn [ns_batches]; rewrite E; reflexivity).
    destruct (inv_batches T d yeq solve prm Xs Ys HC HS m _ _ _ _ _ _ _ HO HI E1) as [I1 _].
    destruct (IH _ _ _ _ _ _ I1 H) as [I2 [vs [r [A1 [A2 [A3 A4]]]]]]. split; [exact I2|].
    destruct (exact_hinges_all T d Xs Ys m (st_w st) HO (proj1 HI)) as [hs HH].
    assert (ES := batch_slacks T d yeq solve prm Xs Ys HXY m b st sl st1 k sl1 hs HO (proj1 HI) HH E).
    exists (st_w st :: vs), (lsum (slice (fst b) (snd b) hs) + r). split.
    { cbn [batch_losses]. exists (slice (fst b) (snd b) hs), r. split; [apply (Forall2_slice _ _ _ _ _ HH)|]. split; [reflexivity|exact A1]. }
    split; [rewrite A2, ES; ring|]. split; [constructor; [apply HI|exact A3]|]. intros _. reflexivity.
Qed.

Fixpoint chainb (bs : list (nat * nat)) (w : list Qc) (es : list Qc) (ws : list (list Qc)) : Prop :=
  match es, ws with
  | [], [] => True
  | e :: es, w' :: ws => length w' = d /\ (exists vs r, batch_losses T S0 bs vs r /\ Forall (fun v => length v = d) vs /\ hd [] vs = w /\ e = ns_C prm * r + normsq w' / (1 + 1)) /\ chainb bs w' es ws
  | _, _ => False
  end.
Lemma loop_batches bs k : batch_slices (ns_batch prm) (length Xs) = Ok bs -> bs <> [] ->
  forall it (m : smodel X Y) sw st curve primal st' curve' primal' reason m',
  oracle_exact m T d S0 -> (forall m2, sw = Some m2 -> oracle_exact m2 T d S0) -> inv st ->
  ns_loop yeq solve prm S0 (length Xs) k it m sw st curve primal = Ok (st', curve', primal', reason, m') ->
  exists es ws, primal' = primal ++ es /\ chainb bs (st_w st) es ws /\ last ws (st_w st) = st_w st' /\ oracle_exact m' T d S0 /\ inv st'.
Proof.
  intros EB1 NB. induction k as [|k IH]; intros it m sw st curve primal st' curve' primal' reason m' HO HSW HI H; cbn [ns_loop] in H.
  - injection H as <- <- <- <- <-. exists [], []. rewrite app_nil_r. repeat (split; auto).
  - apply bind_ok in H. destruct H as [bs' [EB H]]. assert (bs' = bs) by congruence. subst bs'.
    apply bind_ok in H. destruct H as [[[st1 new] sl] [EQ H]].
    destruct (round_losses m bs HO _ _ _ _ _ _ HI EQ) as [I1 [vs [r [R1 [R2 [R3 R4]]]]]].
    apply bind_ok in H. destruct H as [obj [EO H]].
    assert (ESL : sl = r) by (rewrite R2; ring). clear R2. subst sl.
    set (e := ns_C prm * r + normsq (st_w st1) / (1 + 1)) in *.
    assert (STEP : forall m2 sw2 k2 c2, oracle_exact m2 T d S0 -> (forall m3, sw2 = Some m3 -> oracle_exact m3 T d S0) ->
       ns_loop yeq solve prm S0 (length Xs) k k2 m2 sw2 st1 c2 (primal ++ [e]) = Ok (st', curve', primal', reason, m') ->
       exists es ws, primal' = primal ++ es /\ chainb bs (st_w st) es ws /\ last ws (st_w st) = st_w st' /\ oracle_exact m' T d S0 /\ inv st').
    { intros m2 sw2 k2 c2 H2 H3 H4. destruct (IH _ _ _ _ _ _ _ _ _ _ _ H2 H3 I1 H4) as [es [ws [A1 [A2 [A3 [A4 A5]]]]]].
      exists (e :: es), (st_w st1 :: ws). split. { rewrite A1, <- app_assoc. reflexivity. }
      split. { cbn [chainb]. split; [apply I1|]. split; [exists vs, r; auto|exact A2]. }
      split; [|auto]. rewrite last_from. exact A3. }
    destruct ((new =? 0)%nat || _)%bool eqn:STOP.
    + destruct sw as [m2|].
      * apply (STEP m2 None (Datatypes.S it) (curve ++ [obj])); auto. discriminate.
      * injection H as <- <- <- <- <-. exists [e], [st_w st1]. split; auto. split. { cbn [chainb]. split; [apply I1|]. split; [exists vs, r; auto|exact I]. } auto.
    + apply (STEP m sw (Datatypes.S it) (curve ++ [obj])); auto.
Qed.
Lemma chainb_nth bs es : forall w ws, chainb bs w es ws -> length ws = length es /\ Forall (fun v => length v = d) ws /\
  forall i, (i < length es)%nat -> exists vs r, batch_losses T S0 bs vs r /\ Forall (fun v => length v = d) vs /\ hd [] vs = nth i (w :: ws) [] /\
    nth i es 0 = ns_C prm * r + normsq (nth (S i) (w :: ws) []) / (1 + 1).
Proof.
  induction es as [|e es IH]; intros w [|w' ws] H; cbn [chainb] in H; try contradiction.
  - split; auto. split; [constructor|]. cbn [length]. intros i Hi. lia.
  - destruct H as [HL [H1 H2]]. destruct (IH w' ws H2) as [A [B C]]. cbn [length]. split; [lia|]. split; [constructor; auto|].
    intros [|i] Hi; [exact H1|]. destruct (C i) as [vs [r C1]]; [lia|]. exists vs, r. exact C1.
Qed.
Lemma slices_from_nonempty n q packs : forall start rest, (start + packs * q + rest = n)%nat -> (rest <= packs)%nat -> (start < n)%nat -> even_slices_from start n q rest packs <> [].
Proof.
  induction packs as [|k IH]; intros start rest E R L; cbn [even_slices_from]; [lia|].
  destruct (Nat.ltb_spec 0 (q + (if (0 <? rest)%nat then 1 else 0))) as [P|P]; [discriminate|]. destruct (Nat.ltb_spec 0 rest); apply IH; lia.
Qed.
Lemma batches_nonempty z n bs : batch_slices z n = Ok bs -> n <> O -> bs <> [].
Proof.
  unfold batch_slices, gen_even_slices. destruct (_ && _)%bool; [discriminate|].
  set (b := if (z =? -1)%Z then n else Z.to_nat z). destruct (b =? 0)%nat; [discriminate|].
  set (packs := ((n + b - 1) / b)%nat). destruct (Nat.ltb_spec packs 1) as [P|P]; [discriminate|]. intros H NZ. injection H as <-.
  apply slices_from_nonempty; [| |lia].
  - cbn [Nat.add]. symmetry. rewrite (Nat.mul_comm packs). rewrite Nat.mul_comm. apply Nat.div_mod. lia.
  - assert (n mod packs < packs)%nat by (apply Nat.mod_upper_bound; lia). lia.
Qed.

Lemma ns_entries_batches (m : smodel X Y) sw old st curve primal reason bs : sm_size m = d ->
  oracle_exact m T d S0 -> (forall m2, sw = Some m2 -> oracle_exact m2 T d S0) -> Xs <> [] ->
  batch_slices (ns_batch prm) (length Xs) = Ok bs ->
  ns_fit yeq solve prm m sw Xs Ys None old = Ok (st, curve, primal, reason) ->
  exists ws, length ws = length primal /\ nth 0 ws [] = vzero d /\ nth (length primal - 1) ws [] = st_w st /\ Forall (fun v => length v = d) ws /\
    (forall i, (S i < length primal)%nat -> exists vs r, batch_losses T S0 bs vs r /\ Forall (fun v => length v = d) vs /\ hd [] vs = nth i ws [] /\
       nth i primal 0 = ns_C prm * r + normsq (nth (S i) ws []) / (1 + 1)) /\
    exists hs, hinges T (st_w st) S0 hs /\ nth (length primal - 1) primal 0 = primal_value (ns_C prm) (st_w st) hs.
Proof.
  intros Hd HO HSW NE EB1 H. unfold ns_fit in H. cbn [bind] in H. apply bind_ok in H. destruct H as [[[[[st' cu] pr] re] m'] [EL H]].
  apply bind_ok in H. destruct H as [u [EN H]]. apply bind_ok in H. destruct H as [p [EP H]].
  apply bind_ok in H. destruct H as [obj [EO H]]. injection H as <- <- <- <-.
  assert (HK := exact_is_ok _ _ _ _ HO).
  assert (NB : bs <> []) by (apply (batches_nonempty _ _ _ EB1); destruct Xs; [congruence|discriminate]).
  destruct (loop_batches bs (ns_max_iter prm) EB1 NB O m sw _ [] [] st' cu pr re m' HO HSW (start_inv T d m Xs Ys HXY Hd Q1) EL) as [es [ws [A1 [A2 [A3 [A4 A5]]]]]].
  cbn [app] in A1. subst pr. cbn [st_w] in *. rewrite Hd in *. destruct (chainb_nth bs es (vzero d) ws A2) as [B1 [B2 B3]].
  destruct (objective_value m' T d (st_w st') Xs Ys (ns_C prm) NSlack HXY NE (proj1 A5)) as [hs2 [H2 EP2]].
  { intros q Hq. destruct (A4 q Hq) as [A B]. split; auto. apply B. apply A5. }
  exists (vzero d :: ws). rewrite app_length. cbn [length]. replace (length es + 1 - 1)%nat with (length es) by lia.
  split; [lia|]. split; [reflexivity|]. split.
  { rewrite <- A3. clear - B1. revert B1. generalize (vzero d). revert es. induction ws as [|w ws IH]; intros [|e es] v L; try discriminate; [reflexivity|].
    cbn [length nth]. injection L as L. rewrite last_from. apply IH. exact L. }
  split. { constructor; [apply vzero_length|exact B2]. }
  split.
  - intros i Hi. destruct (B3 i) as [vs [r [C1 [C2 [C3 C4]]]]]; [lia|]. exists vs, r. rewrite app_nth1 by lia. auto.
  - exists hs2. split; [exact H2|]. rewrite app_nth2 by lia. rewrite Nat.sub_diag. cbn [nth]. congruence.
Qed.
End curve.

(** ** how far an entry can be from the primal value of weights near those of its batches *)
Section gap.
Context {X Y : Type} (T : task X Y) (d : nat) (R D : Qc) (w : list Qc).
Hypothesis HR : 0 <= R.
Hypothesis HD : 0 <= D.
Hypothesis Hw : length w = d.
Lemma batch_near v S hs hw : length v = d -> normsq (vsub v w) <= D * D ->
  (forall p, In p S -> sized T d p /\ forall y', t_label T (fst p) y' -> normsq (vsub (t_feat T (fst p) (snd p)) (t_feat T (fst p) y')) <= R * R) ->
  hinges T v S hs -> hinges T w S hw ->
  lsum hs <= lsum hw + lsum (map (fun _ => D * R) hw) /\ lsum hw <= lsum hs + lsum (map (fun _ => D * R) hw).
Proof.
  intros Hv HN HF H1. revert hw. unfold hinges in *. induction H1 as [|p h S hs P1 H1 IH]; intros [|hh rr] H2; try (exfalso; inversion H2; fail).
  - split; discriminate.
  - assert (Q : is_hinge T w (fst p) (snd p) hh /\ hinges T w S rr) by (inversion H2; split; assumption). destruct Q as [Q1 Q2].
    cbn [map]. rewrite !lsum_cons. destruct (HF p (or_introl eq_refl)) as [F1 F2].
    assert (A := hinge_lipschitz T d R p w v hh h D F1 HR F2 Hw Hv HD HN Q1 P1).
    assert (HN2 : normsq (vsub w v) <= D * D) by (rewrite norm_sub_comm by congruence; exact HN).
    assert (B := hinge_lipschitz T d R p v w h hh D F1 HR F2 Hv Hw HD HN2 P1 Q1).
    destruct (IH (fun q Hq => HF q (or_intror Hq)) rr Q2) as [C1 C2].
    set (s := lsum (map (fun _ => D * R) rr)) in *. set (t := lsum rr) in *. set (u := lsum hs) in *. set (x := D * R) in *. clearbody s t u x. split; qclra.
Qed.
Lemma losses_near S hw : (forall p, In p S -> sized T d p /\ forall y', t_label T (fst p) y' -> normsq (vsub (t_feat T (fst p) (snd p)) (t_feat T (fst p) y')) <= R * R) ->
  hinges T w S hw -> forall bs vs r, batch_losses T S bs vs r -> Forall (fun v => length v = d /\ normsq (vsub v w) <= D * D) vs ->
  let t := lsum (map (fun b => lsum (slice (fst b) (snd b) hw)) bs) in
  let e := lsum (map (fun b => lsum (slice (fst b) (snd b) (map (fun _ => D * R) hw))) bs) in
  r <= t + e /\ t <= r + e.
Proof.
  intros HF HW. induction bs as [|b bs IH]; intros [|v vs] r H HV; cbn [batch_losses] in H; try contradiction.
  - subst r. split; discriminate.
  - destruct H as [hs [r' [H1 [-> H2]]]].
    assert (V : (length v = d /\ normsq (vsub v w) <= D * D) /\ Forall (fun v => length v = d /\ normsq (vsub v w) <= D * D) vs) by (inversion HV; auto).
    destruct V as [[V1 V2] V3]. specialize (IH vs r' H2 V3). cbv zeta in IH. destruct IH as [I1 I2].
    assert (N := batch_near v (slice (fst b) (snd b) S) hs (slice (fst b) (snd b) hw) V1 V2).
    destruct N as [N1 N2]; [|exact H1|apply (Forall2_slice _ _ _ _ _ HW)|].
    { intros p Hp. apply HF. unfold slice in Hp. rewrite <- (firstn_skipn (fst b) S). apply in_or_app. right.
      rewrite <- (firstn_skipn (snd b - fst b) (skipn (fst b) S)). apply in_or_app. left. exact Hp. }
    assert (ES : map (fun _ => D * R) (slice (fst b) (snd b) hw) = slice (fst b) (snd b) (map (fun _ => D * R) hw)).
    { unfold slice. rewrite <- firstn_map, <- skipn_map. reflexivity. }
    rewrite ES in N1, N2. cbv zeta. cbn [map]. rewrite !lsum_cons.
    match goal with |- lsum hs + r' <= ?a + ?b + (?c + ?f) /\ _ => set (x1 := a) in *; set (x2 := b) in *; set (x3 := c) in *; set (x4 := f) in * end.
    set (x5 := lsum hs) in *. clearbody x1 x2 x3 x4 x5. split; qclra.
Qed.
Lemma losses_total z S hw bs vs r : (forall p, In p S -> sized T d p /\ forall y', t_label T (fst p) y' -> normsq (vsub (t_feat T (fst p) (snd p)) (t_feat T (fst p) y')) <= R * R) ->
  batch_slices z (length S) = Ok bs -> hinges T w S hw -> batch_losses T S bs vs r -> Forall (fun v => length v = d /\ normsq (vsub v w) <= D * D) vs ->
  r <= lsum hw + ofN (length S) * (D * R) /\ lsum hw <= r + ofN (length S) * (D * R).
Proof.
  intros HF EB HW HB HV. assert (N := losses_near S hw HF HW bs vs r HB HV). cbv zeta in N.
  assert (L : length S = length hw) by (apply (Forall2_len _ _ _ HW)). rewrite L in EB. rewrite (batches_total z hw bs EB) in N.
  assert (L2 : length hw = length (map (fun _ => D * R) hw)) by (rewrite map_length; reflexivity). rewrite L2 in EB. rewrite (batches_total z _ bs EB) in N.
  assert (E : lsum (map (fun _ => D * R) hw) = ofN (length S) * (D * R)).
  { rewrite L. clear. induction hw as [|h hw IH]; [cbn [map length]; change (lsum []) with 0; change (ofN 0) with 0; ring|]. cbn [map length]. rewrite lsum_cons, IH, ofN_S. ring. }
  rewrite E in N. exact N.
Qed.
End gap.

Section near.
Context {X Y : Type} (T : task X Y) (d : nat) (yeq : Y -> Y -> bool) (solve : qp_solver) (prm : ns_params).
Variables (Xs : list X) (Ys : list Y).
Hypothesis HC : 0 <= ns_C prm.
Hypothesis HXY : length Xs = length Ys.
Hypothesis HS : qp_sound solve.
Notation S0 := (combine Xs Ys).
Lemma entry_near (m : smodel X Y) bs vs r e w R D hs : oracle_exact m T d S0 -> batch_slices (ns_batch prm) (length Xs) = Ok bs ->
  0 <= R -> (forall p y', In p S0 -> t_label T (fst p) y' -> normsq (vsub (t_feat T (fst p) (snd p)) (t_feat T (fst p) y')) <= R * R) ->
  0 <= D -> length w = d -> batch_losses T S0 bs vs r -> Forall (fun v => length v = d) vs -> (forall v, In v vs -> normsq (vsub v w) <= D * D) ->
  e = ns_C prm * r + normsq w / (1 + 1) -> hinges T w S0 hs ->
  e <= primal_value (ns_C prm) w hs + ns_C prm * (ofN (length Xs) * (D * R)) /\ primal_value (ns_C prm) w hs <= e + ns_C prm * (ofN (length Xs) * (D * R)).
Proof.
  intros HO EB HR HF HD Hw HB HL HV -> HH.
  assert (LS : length S0 = length Xs) by (rewrite combine_length; lia). rewrite <- LS in EB |- *.
  assert (SZ : forall p, In p S0 -> sized T d p /\ forall y', t_label T (fst p) y' -> normsq (vsub (t_feat T (fst p) (snd p)) (t_feat T (fst p) y')) <= R * R).
  { intros p Hp. split; [|intros y' Ly; apply HF; auto]. destruct (HO p Hp) as [[A1 [A2 A3]] _]. split; [exact A1|]. split; [|intros y' Ly; apply (A3 y' Ly)].
    exact A2. }
  destruct (losses_total T d R D w HR HD Hw (ns_batch prm) S0 hs bs vs r SZ EB HH HB) as [N1 N2].
  { apply Forall_forall. intros v Hv. rewrite Forall_forall in HL. auto. }
  unfold primal_value. apply (mult_le_l (ns_C prm)) in N1; [|exact HC]. apply (mult_le_l (ns_C prm)) in N2; [|exact HC].
  rewrite Qcmult_plus_distr_r in N1, N2. set (g := ns_C prm * (ofN (length S0) * (D * R))) in *. set (a := ns_C prm * r) in *. set (b := ns_C prm * lsum hs) in *.
  set (c := normsq w / (1 + 1)) in *. clearbody g a b c. split; qclra.
Qed.
End near.

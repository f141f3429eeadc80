(** LatentNodeCRF: loss augmentation, losses; solvers on penalised potentials. *)
From Verif Require Import Model.LatentNode Spec.GraphSpec Spec.SolverSpec
  Proofs.Arrays Proofs.EnergyProofs Proofs.GraphCRFProofs Proofs.LossProofs Proofs.CRFProofs Proofs.MaxProdProofs
  Proofs.LatentProofs Proofs.LatentProofs2 Proofs.LatentNodeProofs Spec.LatentNodeSpec.

(** ** loss augmentation *)
Lemma ln_augment_ok g h ls : let y := ln_label_from_latent g h in
  Forall (fun s => (s < length (ln_cw g))%nat) y -> NoDup ls ->
  forall u, Forall (fun l => (l < mcols u)%nat) ls -> mat_ok u -> (length y <= mrows u)%nat ->
  exists u', ln_augment g h ls u = Ok u' /\ mat_ok u' /\ mrows u' = mrows u /\ mcols u' = mcols u /\
  forall i s, (i < mrows u)%nat -> (s < mcols u)%nat ->
    mget u' i s = mget u i s + if (existsb (Nat.eqb s) ls && (i <? length y)%nat && negb (lab y i =? s)%nat)%bool then get1 (ln_cw g) (lab y i) else 0.
Proof.
  intros y HY. induction ls as [|l ls IH]; intros ND u FL OU LU; cbn [ln_augment].
  - exists u. repeat (split; [assumption || reflexivity|]). intros i s _ _. cbn [existsb andb]. ring.
  - inversion ND as [|? ? NI ND']; subst. inversion FL as [|? ? HL FL']; subst.
    unfold ln_augment_state. fold y. rewrite class_weights_ok by exact HY. cbn [bind].
    rewrite ensure_true.
    2:{ apply andb_true_iff. split; [|apply Nat.ltb_lt, HL]. apply forallb_forall. intros i Hi. apply in_seq in Hi.
        apply orb_true_iff. right. apply Nat.ltb_lt. lia. }
    cbn [bind]. match goal with |- context [mtab _ _ ?f] => set (u1 := mtab (mrows u) (mcols u) f) end.
    destruct (IH ND' u1 FL' (mtab_ok _ _ _) LU) as [u' [E [O [R [C V]]]]].
    exists u'. split; [exact E|]. split; [exact O|]. split; [exact R|]. split; [exact C|]. intros i s Hi Hs. rewrite V by assumption. unfold u1. rewrite mget_mtab by assumption. cbn [existsb].
    change (nth i y 0%nat) with (lab y i).
    destruct (Nat.eqb_spec s l) as [->|N]; cbn [andb orb].
    + assert (Q : existsb (Nat.eqb l) ls = false).
      { destruct (existsb (Nat.eqb l) ls) eqn:Q; [|reflexivity]. exfalso. apply existsb_exists in Q. destruct Q as [z [Z1 Z2]]. apply Nat.eqb_eq in Z2. subst z. exact (NI Z1). }
      rewrite Q. cbn [andb]. destruct (Nat.ltb_spec i (length y)) as [Hy|Hy]; cbn [andb]; [|ring].
      assert (Q' : get1 (map (get1 (ln_cw g)) y) i = get1 (ln_cw g) (lab y i)) by (apply (nth_map_in (get1 (ln_cw g)) y i 0%nat 0); exact Hy).
      rewrite Q'. destruct (lab y i =? l)%nat; cbn [negb]; ring.
    + reflexivity.
Qed.
Lemma ln_augment_all g h u : let y := ln_label_from_latent g h in
  Forall (fun s => (s < length (ln_cw g))%nat) y -> mat_ok u -> (length y <= mrows u)%nat -> mcols u = ln_states g ->
  exists u', ln_augment g h (seq 0 (ln_states g)) u = Ok u' /\ mat_ok u' /\ mrows u' = mrows u /\ mcols u' = ln_states g /\
  (forall i s, (i < mrows u)%nat -> (s < ln_states g)%nat -> mget u' i s = mget u i s + if ((i <? length y)%nat && negb (lab y i =? s)%nat)%bool then get1 (ln_cw g) (lab y i) else 0) /\
  forall edges P h', labelling (mrows u) (ln_states g) h' ->
    score (mrows u) edges (mget u') P (lab h') = score (mrows u) edges (mget u) P (lab h') + hamming (length y) (get1 (ln_cw g)) (lab y) (lab h').
Proof.
  intros y HY OU LU CU. destruct (ln_augment_ok g h (seq 0 (ln_states g)) HY (seq_NoDup _ _) u) as [u' [E [O [R [C V]]]]]; try assumption.
  { apply Forall_forall. intros l Hl. apply in_seq in Hl. lia. }
  fold y in V. rewrite CU in C, V.
  assert (V' : forall i s, (i < mrows u)%nat -> (s < ln_states g)%nat -> mget u' i s = mget u i s + if ((i <? length y)%nat && negb (lab y i =? s)%nat)%bool then get1 (ln_cw g) (lab y i) else 0).
  { intros i s Hi Hs. rewrite V by assumption. assert (Q : existsb (Nat.eqb s) (seq 0 (ln_states g)) = true).
    { apply existsb_exists. exists s. split; [apply in_seq; lia|apply Nat.eqb_refl]. }
    rewrite Q. reflexivity. }
  exists u'. repeat (split; [assumption|]). intros edges P h' H'. unfold score, hamming.
  rewrite (sumn_ext (mrows u) (fun i => mget u' i (lab h' i)) (fun i => mget u i (lab h' i) + if ((i <? length y)%nat && negb (lab y i =? lab h' i)%nat)%bool then get1 (ln_cw g) (lab y i) else 0)).
  - rewrite sumn_plus.
    assert (Q : sumn (mrows u) (fun i => if ((i <? length y)%nat && negb (lab y i =? lab h' i)%nat)%bool then get1 (ln_cw g) (lab y i) else 0) =
                sumn (length y) (fun i => if (lab y i =? lab h' i)%nat then 0 else get1 (ln_cw g) (lab y i))); [|rewrite Q; ring].
    replace (mrows u) with (length y + (mrows u - length y))%nat by lia. rewrite sumn_split. rewrite (sumn_zero (mrows u - length y)).
    + rewrite Qcplus_0_r. apply sumn_ext. intros i Hi. apply Nat.ltb_lt in Hi. rewrite Hi. cbn [andb]. destruct (lab y i =? lab h' i)%nat; reflexivity.
    + intros j _. replace (length y + j <? length y)%nat with false by (symmetry; apply Nat.ltb_ge; lia). reflexivity.
  - intros i Hi. apply V'; [exact Hi|]. apply (labelling_lt (mrows u)); assumption.
Qed.

(** ** losses *)
Section Loss.
Variable g : ln_crf.
Hypothesis HC : length (ln_cw g) = ln_labels g.
Lemma visible_loss_eq nv nh h h' : two_level (ln_labels g) (ln_hidden g) nv nh h ->
  visible_loss g h h' = hamming nv (get1 (ln_cw g)) (lab (ln_label_from_latent g h)) (lab h').
Proof.
  intros H. destruct (label_two_level g nv nh h H) as [H1 H2]. unfold visible_loss. fold (ln_label_from_latent g h). rewrite (proj1 H1).
  unfold hamming. apply sumn_ext. intros i Hi. rewrite (completes_visible _ _ _ _ _ i H2) by (rewrite (proj1 H1); exact Hi). reflexivity.
Qed.
Lemma visible_loss_labels nv nh h h' : two_level (ln_labels g) (ln_hidden g) nv nh h -> two_level (ln_labels g) (ln_hidden g) nv nh h' ->
  visible_loss g h h' = hamming nv (get1 (ln_cw g)) (lab (ln_label_from_latent g h)) (lab (ln_label_from_latent g h')).
Proof.
  intros H H'. rewrite (visible_loss_eq nv nh) by exact H. destruct (label_two_level g nv nh h' H') as [H1 H2]. unfold hamming. apply sumn_ext. intros i Hi.
  rewrite <- (completes_visible _ _ _ _ _ i H2) by (rewrite (proj1 H1); exact Hi). reflexivity.
Qed.
Lemma ln_loss_value nv nh h h' : two_level (ln_labels g) (ln_hidden g) nv nh h -> two_level (ln_labels g) (ln_hidden g) nv nh h' ->
  ln_loss g h h' = Ok (visible_loss g h h').
Proof.
  intros H H'. rewrite (visible_loss_labels nv nh) by assumption. unfold ln_loss. apply (loss_weighted nv (ln_labels g)); [exact HC| |].
  - apply (label_two_level g nv nh h H).
  - apply (label_two_level g nv nh h' H').
Qed.
(** the loss of an observed labelling, read as a latent one, is right too *)
Lemma ln_loss_observed nv nh y h : labelling nv (ln_labels g) y -> two_level (ln_labels g) (ln_hidden g) nv nh h ->
  ln_loss g y h = Ok (hamming nv (get1 (ln_cw g)) (lab y) (lab h)).
Proof.
  intros Hy H. unfold ln_loss. unfold ln_label_from_latent at 1. rewrite filter_low by apply Hy.
  destruct (label_two_level g nv nh h H) as [H1 H2]. rewrite (loss_weighted nv (ln_labels g) _ _ _ HC Hy) by apply H1. f_equal.
  unfold hamming. apply sumn_ext. intros i Hi. rewrite <- (completes_visible _ _ _ _ _ i H2) by (rewrite (proj1 H1); exact Hi). reflexivity.
Qed.
Lemma ln_continuous_value nv nh h m : two_level (ln_labels g) (ln_hidden g) nv nh h -> (nv <= mrows m)%nat -> (ln_labels g <= mcols m)%nat ->
  ln_continuous_loss g h m = Ok (sumn nv (fun i => get1 (ln_cw g) (lab h i) * (1 - mget m i (lab h i)))).
Proof.
  intros H R C. destruct (label_two_level g nv nh h H) as [H1 H2]. unfold ln_continuous_loss. rewrite (proj1 H1), !Nat.min_l by assumption.
  rewrite (continuous_loss_weighted nv (ln_labels g) _ _ _ HC H1) by reflexivity. f_equal. apply sumn_ext. intros i Hi.
  rewrite mget_mtab; [|exact Hi|apply (labelling_lt nv); assumption].
  rewrite (completes_visible _ _ _ _ _ i H2) by (rewrite (proj1 H1); exact Hi). reflexivity.
Qed.
Lemma ln_max_loss_value nv nh h : two_level (ln_labels g) (ln_hidden g) nv nh h ->
  ln_max_loss g h = Ok (sumn nv (fun i => get1 (ln_cw g) (lab h i))).
Proof.
  intros H. destruct (label_two_level g nv nh h H) as [H1 H2]. unfold ln_max_loss. rewrite (max_loss_weighted nv (ln_labels g) _ _ HC H1). f_equal.
  apply sumn_ext. intros i Hi. rewrite (completes_visible _ _ _ _ _ i H2) by (rewrite (proj1 H1); exact Hi). reflexivity.
Qed.
End Loss.

(** ** penalties that outweigh everything else *)
Lemma pairs_bounded n k edges (T : nat -> nat -> nat -> Qc) B z : graph_edges n edges -> labelling n k z ->
  (forall e s t, (e < length edges)%nat -> (s < k)%nat -> (t < k)%nat -> - B <= T e s t /\ T e s t <= B) ->
  - (ofN (length edges) * B) <= sumn (length edges) (fun e => T e (lab z (fst (nth e edges (0, 0)%nat))) (lab z (snd (nth e edges (0, 0)%nat)))) /\
  sumn (length edges) (fun e => T e (lab z (fst (nth e edges (0, 0)%nat))) (lab z (snd (nth e edges (0, 0)%nat)))) <= ofN (length edges) * B.
Proof.
  intros HG Lz HT. assert (Q : forall e, (e < length edges)%nat -> - B <= T e (lab z (fst (nth e edges (0, 0)%nat))) (lab z (snd (nth e edges (0, 0)%nat))) /\
    T e (lab z (fst (nth e edges (0, 0)%nat))) (lab z (snd (nth e edges (0, 0)%nat))) <= B).
  { intros e He. destruct (graph_edges_nth _ _ e HG He) as [G1 G2]. apply HT; [exact He| |]; apply (labelling_lt n); assumption. }
  split.
  - replace (- (ofN (length edges) * B)) with (sumn (length edges) (fun _ => - B)) by (rewrite sumn_const; ring). apply sumn_le. intros e He. apply Q, He.
  - rewrite <- sumn_const. apply sumn_le. intros e He. apply Q, He.
Qed.
Lemma legal_maximiser n k edges (U : nat -> nat -> Qc) T (ok : nat -> nat -> bool) B B' K h h0 :
  graph_edges n edges -> maximiser n k edges U T h -> labelling n k h0 -> (forall i, (i < n)%nat -> ok i (lab h0 i) = true) ->
  0 <= B -> (forall i s, (i < n)%nat -> (s < k)%nat -> ok i s = true -> - B <= U i s /\ U i s <= B) ->
  (forall i s, (i < n)%nat -> (s < k)%nat -> ok i s = false -> U i s <= - K) ->
  (forall e s t, (e < length edges)%nat -> (s < k)%nat -> (t < k)%nat -> - B' <= T e s t /\ T e s t <= B') ->
  ofN n * (B + B) - B + ofN (length edges) * (B' + B') < K -> - B <= K ->
  forall i, (i < n)%nat -> ok i (lab h i) = true.
Proof.
  intros HG [LH HM] L0 OK0 B0 HB HK HT HSM KB i Hi. destruct (ok i (lab h i)) eqn:OKi; [reflexivity|exfalso].
  specialize (HM h0 L0). unfold score in HM.
  destruct (pairs_bounded n k edges T B' h HG LH HT) as [_ P1]. destruct (pairs_bounded n k edges T B' h0 HG L0 HT) as [P0 _].
  assert (U0 : - (ofN n * B) <= sumn n (fun i => U i (lab h0 i))).
  { replace (- (ofN n * B)) with (sumn n (fun _ => - B)) by (rewrite sumn_const; ring). apply sumn_le. intros j Hj. apply HB; [exact Hj| |apply OK0, Hj]. apply (labelling_lt n); assumption. }
  assert (U1 : sumn n (fun i => U i (lab h i)) <= ofN n * B - B - K).
  { apply Qcle_trans with (sumn n (fun j => B + ind (j =? i)%nat * (- B - K))).
    - apply sumn_le. intros j Hj. pose proof (labelling_lt _ _ _ j LH Hj) as Ls.
      destruct (Nat.eqb_spec j i) as [->|Nj]; cbn [ind].
      + specialize (HK i _ Hi Ls OKi). replace (B + 1 * (- B - K)) with (- K) by ring. exact HK.
      + replace (B + 0 * (- B - K)) with B by ring. destruct (ok j (lab h j)) eqn:OKj; [apply HB; assumption|].
        specialize (HK j _ Hj Ls OKj). qclra.
    - rewrite sumn_plus, sumn_const. rewrite (sumn_pick n i (fun _ => - B - K)) by exact Hi.
      replace (ofN n * B + (- B - K)) with (ofN n * B - B - K) by ring. apply Qcle_refl. }
  set (a := sumn n _) in *. set (a0 := sumn n (fun i => U i (lab h0 i))) in *. set (b := sumn _ _) in *. set (b0 := sumn _ _) in *.
  replace (ofN n * (B + B)) with (ofN n * B + ofN n * B) in HSM by ring. replace (ofN (length edges) * (B' + B')) with (ofN (length edges) * B' + ofN (length edges) * B') in HSM by ring.
  set (nb := ofN n * B) in *. set (eb := ofN (length edges) * B') in *. clearbody a a0 b b0 nb eb. qclra.
Qed.
Lemma score_eq n edges (U U' : nat -> nat -> Qc) T h : (forall i, (i < n)%nat -> U i (lab h i) = U' i (lab h i)) ->
  score n edges U T (lab h) = score n edges U' T (lab h).
Proof. intros H. unfold score. f_equal. apply sumn_ext. exact H. Qed.

Section Core.
Variables (g : ln_crf) (nv nh : nat) (edges : list (nat * nat)).
Let n := (nv + nh)%nat.
Let S := ln_states g.
Let L := ln_labels g.
Let K := ln_hidden g.
Variables (U : mat) (V : nat -> nat -> Qc) (M : Qc) (T : nat -> nat -> nat -> Qc).
Hypothesis HG : graph_edges n edges.
Hypothesis OU : mat_ok U.
Hypothesis RU : mrows U = n.
Hypothesis CU : mcols U = S.
Hypothesis M1 : 1 <= M.
Hypothesis GU : forall i s, (i < n)%nat -> (s < S)%nat -> mget U i s = if legal L nv i s then V i s else - ofN 100 * M.
Variables B B' : Qc.
Hypothesis HB : forall i s, (i < n)%nat -> (s < S)%nat -> legal L nv i s = true -> - B <= V i s /\ V i s <= B.
Hypothesis HT : forall e s t, (e < length edges)%nat -> (s < S)%nat -> (t < S)%nat -> - B' <= T e s t /\ T e s t <= B'.
Hypothesis HC : length (ln_cw g) = L.

Lemma M100 : ofN 100 <= ofN 100 * M.
Proof.
  replace (ofN 100 * M) with (ofN 100 + ofN 100 * (M - 1)) by ring. assert (0 <= ofN 100 * (M - 1)) by (apply Qcmult_nonneg; [apply ofN_nonneg|qclra]). qclra.
Qed.
Lemma core_score h : two_level L K nv nh h -> score n edges (mget U) T (lab h) = score n edges V T (lab h).
Proof.
  intros H. apply score_eq. intros i Hi. pose proof (two_level_labelling _ _ _ _ _ H) as LH.
  rewrite GU; [|exact Hi|apply (labelling_lt n); [exact LH|exact Hi]]. rewrite (two_level_legal _ _ _ _ _ H i Hi). reflexivity.
Qed.
Lemma core_inference h h0 : 0 <= B -> two_level L K nv nh h0 -> maximiser n S edges (mget U) T h ->
  ofN n * (B + B) + ofN (length edges) * (B' + B') < ofN 100 ->
  two_level L K nv nh h /\ forall h', two_level L K nv nh h' -> score n edges V T (lab h') <= score n edges V T (lab h).
Proof.
  intros B0 H0 HM SM. assert (H : two_level L K nv nh h).
  { apply legal_two_level; [exact (proj1 HM)|].
    apply (legal_maximiser n S edges (mget U) T (legal L nv) B B' (ofN 100 * M) h h0 HG HM (two_level_labelling _ _ _ _ _ H0) (two_level_legal _ _ _ _ _ H0) B0).
    - intros i s Hi Hs OKi. rewrite GU by assumption. rewrite OKi. apply HB; assumption.
    - intros i s Hi Hs OKi. rewrite GU by assumption. rewrite OKi. replace (- ofN 100 * M) with (- (ofN 100 * M)) by ring. apply Qcle_refl.
    - exact HT.
    - pose proof M100. set (a := ofN n * (B + B)) in *. set (b := ofN (length edges) * (B' + B')) in *. set (c := ofN 100 * M) in *. clearbody a b c. generalize dependent (ofN 100). intros. qclra.
    - pose proof M100. assert (0 <= ofN 100) by apply ofN_nonneg. set (c := ofN 100 * M) in *. clearbody c. generalize dependent (ofN 100). intros. qclra. }
  split; [exact H|]. intros h' H'. rewrite <- !core_score by assumption. apply HM. apply (two_level_labelling _ _ _ _ _ H').
Qed.
(** with loss augmentation for the labels of [hy] *)
Lemma core_laug hy U' h : 0 <= B -> two_level L K nv nh hy -> ln_augment g hy (seq 0 S) U = Ok U' ->
  maximiser n S edges (mget U') T h -> forall R, 0 <= R -> (forall l, (l < L)%nat -> 0 <= get1 (ln_cw g) l /\ get1 (ln_cw g) l <= R) ->
  ofN n * (B + R + (B + R)) + ofN (length edges) * (B' + B') < ofN 100 ->
  two_level L K nv nh h /\ forall h', two_level L K nv nh h' -> score n edges V T (lab h') + visible_loss g hy h' <= score n edges V T (lab h) + visible_loss g hy h.
Proof.
  intros B0 HY EA HM R R0 HR SM. destruct (label_two_level g nv nh hy HY) as [Y1 Y2]. set (y := ln_label_from_latent g hy) in *.
  destruct (ln_augment_all g hy U) as [U1 [E1 [O1 [R1 [C1 [V1 S1]]]]]].
  { rewrite HC. apply Y1. } { exact OU. } { fold y. rewrite (proj1 Y1), RU. unfold n. lia. } { exact CU. }
  fold y in V1, S1. fold S in E1. assert (U1 = U') by congruence. subst U1. clear E1. rewrite RU in V1, S1. rewrite (proj1 Y1) in V1, S1.
  assert (NN : (0 < n)%nat -> 1 <= ofN n) by (clear; intros Hn; destruct n as [|m]; [lia|]; rewrite (ofN_S m); pose proof (ofN_nonneg m); qclra).
  assert (ADD : forall i s, (i < n)%nat -> (s < S)%nat -> mget U i s <= mget U' i s /\ mget U' i s <= mget U i s + R).
  { intros i s Hi Hs. rewrite V1 by assumption. destruct (Nat.ltb_spec i nv) as [Hv|Hv]; cbn [andb]; [|split; qclra].
    destruct (HR (lab y i)) as [Q1 Q2]; [apply (labelling_lt nv); assumption|]. destruct (lab y i =? s)%nat; cbn [negb]; split; qclra. }
  assert (H : two_level L K nv nh h).
  { apply legal_two_level; [exact (proj1 HM)|]. intros j Hj.
    apply (legal_maximiser n S edges (mget U') T (legal L nv) (B + R) B' (ofN 100 * M - R) h hy HG HM (two_level_labelling _ _ _ _ _ HY) (two_level_legal _ _ _ _ _ HY)).
    - qclra.
    - intros i s Hi Hs OKi. destruct (ADD i s Hi Hs) as [A1 A2]. rewrite GU in A1, A2 by assumption. rewrite OKi in A1, A2. destruct (HB i s Hi Hs OKi). split; qclra.
    - intros i s Hi Hs OKi. destruct (ADD i s Hi Hs) as [A1 A2]. rewrite GU in A2 by assumption. rewrite OKi in A2.
      replace (- (ofN 100 * M - R)) with (- ofN 100 * M + R) by ring. exact A2.
    - exact HT.
    - pose proof M100. set (a := ofN n * (B + R + (B + R))) in *. set (b := ofN (length edges) * (B' + B')) in *. set (c := ofN 100 * M) in *. clearbody a b c. generalize dependent (ofN 100). intros. qclra.
    - pose proof M100. assert (Q : 0 <= ofN n * (B + R)) by (apply Qcmult_nonneg; [apply ofN_nonneg|qclra]).
      assert (Q1 : B + R <= ofN n * (B + R)).
      { assert (0 <= (ofN n - 1) * (B + R)) by (apply Qcmult_nonneg; [specialize (NN ltac:(lia)); qclra|qclra]).
        replace (ofN n * (B + R)) with ((ofN n - 1) * (B + R) + (B + R)) by ring. qclra. }
      assert (PB : 0 <= ofN (length edges) * (B' + B')).
      { destruct edges as [|e0 er]; [replace (ofN (length (@nil (nat * nat)))) with 0 by reflexivity; replace (0 * (B' + B')) with 0 by ring; apply Qcle_refl|].
        apply Qcmult_nonneg; [apply ofN_nonneg|]. assert (SP : (0 < S)%nat) by (pose proof (labelling_lt _ _ _ j (proj1 HM) Hj); lia).
        destruct (HT O O O ltac:(cbn; lia) SP SP). qclra. }
      replace (ofN n * (B + R + (B + R))) with (ofN n * (B + R) + ofN n * (B + R)) in SM by ring.
      set (a := ofN n * (B + R)) in *. set (b := ofN (length edges) * (B' + B')) in *. set (c := ofN 100 * M) in *. clearbody a b c. generalize dependent (ofN 100). intros. qclra.
    - exact Hj. }
  split; [exact H|]. intros h' H'.
  assert (SV : forall z, two_level L K nv nh z -> score n edges V T (lab z) + visible_loss g hy z = score n edges (mget U') T (lab z)).
  { intros z Hz. rewrite S1 by apply (two_level_labelling _ _ _ _ _ Hz). rewrite (core_score z Hz). rewrite (visible_loss_eq g nv nh hy z HY). reflexivity. }
  rewrite !SV by assumption. apply HM. apply (two_level_labelling _ _ _ _ _ H').
Qed.
(** clamping the visible nodes *)
Lemma clamp_ok y : labelling nv L y -> (0 < n)%nat -> (0 < S)%nat ->
  exists U' M', ln_clamp y U = Ok U' /\ mat_ok U' /\ mrows U' = n /\ mcols U' = S /\ 1 <= M' /\
  (forall i s, (i < n)%nat -> (s < S)%nat -> mget U i s <= M') /\
  forall i s, (i < n)%nat -> (s < S)%nat -> mget U' i s = if ((i <? nv) && (s =? lab y i))%nat then ofN 100 * M' else mget U i s.
Proof. clear HC.
  intros HY Hn HS. unfold ln_clamp. destruct (max_entry_ok U n S OU RU CU Hn HS) as [mx [E [X1 X2]]]. rewrite E. cbn [bind].
  rewrite ensure_true.
  2:{ apply andb_true_iff. split; [apply Nat.leb_le; rewrite (proj1 HY), RU; unfold n; lia|]. apply forallb_lt_Forall. apply Forall_impl with (2 := proj2 HY).
      intros s Hs. cbv beta in *. rewrite CU. unfold S, ln_states. fold L. lia. }
  cbn [bind]. eexists. exists (Qcmax mx 1). split; [reflexivity|]. rewrite RU, CU. split; [apply mtab_ok|]. split; [reflexivity|]. split; [reflexivity|]. split; [exact X1|]. split; [exact X2|].
  intros i s Hi Hs. rewrite mget_mtab by assumption. rewrite (proj1 HY). reflexivity.
Qed.
Lemma core_latent y U' h h0 : 0 <= B -> labelling nv L y -> completes L K nh y h0 -> ln_clamp y U = Ok U' ->
  maximiser n S edges (mget U') T h -> ofN n * (B + B) + ofN (length edges) * (B' + B') < ofN 100 ->
  completes L K nh y h /\ forall h', completes L K nh y h' -> score n edges V T (lab h') <= score n edges V T (lab h).
Proof. clear HC.
  intros B0 HY H0 EC HM SM. pose proof (completes_labelling _ _ _ _ _ _ HY H0) as L0. fold n in L0.
  assert (HTL : forall z, completes L K nh y z -> two_level L K nv nh z) by (intros z Hz; exists y; split; assumption).
  assert (DEG : n = O \/ (0 < n)%nat) by lia. destruct DEG as [Hn|Hn].
  { assert (NV : nv = O /\ nh = O) by (unfold n in Hn; lia). destruct NV as [N1 N2].
    assert (completes L K nh y h) as HH.
    { exists h. destruct HM as [[LH _] _]. rewrite Hn in LH. destruct h; [|discriminate LH]. destruct HY as [LY _]. rewrite N1 in LY. destruct y; [|discriminate LY].
      split; [reflexivity|]. split; [rewrite N2; reflexivity|constructor]. }
    split; [exact HH|]. intros h' H'. pose proof (completes_length _ _ _ _ _ H') as Q1. pose proof (completes_length _ _ _ _ _ HH) as Q2.
    rewrite (proj1 HY), N1, N2 in Q1, Q2. destruct h, h'; try discriminate Q1; try discriminate Q2. apply Qcle_refl. }
  assert (HS : (0 < S)%nat) by (pose proof (labelling_lt _ _ _ O L0 Hn) as Q; unfold S, ln_states; fold L K; lia).
  destruct (clamp_ok y HY Hn HS) as [U1 [M' [E1 [O1 [R1 [C1 [M1' [MU V1]]]]]]]]. assert (U1 = U') by congruence. subst U1. clear E1.
  set (Z := fun i s => mget U' i s - if (i <? nv)%nat then ofN 100 * M' else 0).
  set (c := sumn n (fun i => if (i <? nv)%nat then ofN 100 * M' else 0)).
  assert (SZ : forall z, score n edges (mget U') T (lab z) = score n edges Z T (lab z) + c).
  { intros z. unfold score, Z, c. rewrite sumn_minus. ring. }
  assert (HMZ : maximiser n S edges Z T h).
  { destruct HM as [LH HM]. split; [exact LH|]. intros z Hz. specialize (HM z Hz). rewrite !SZ in HM. clearbody c. qclra. }
  assert (M100' : ofN 100 <= ofN 100 * M').
  { replace (ofN 100 * M') with (ofN 100 + ofN 100 * (M' - 1)) by ring. assert (0 <= ofN 100 * (M' - 1)) by (apply Qcmult_nonneg; [apply ofN_nonneg|qclra]). qclra. }
  pose proof M100 as MM. assert (P100 : 0 <= ofN 100) by apply ofN_nonneg.
  set (ok := fun i s => if (i <? nv)%nat then (s =? lab y i)%nat else (L <=? s)%nat).
  assert (OK0 : forall z, completes L K nh y z -> forall i, (i < n)%nat -> ok i (lab z i) = true).
  { intros z Hz i Hi. unfold ok. destruct (Nat.ltb_spec i nv) as [Hv|Hv].
    - rewrite (completes_visible _ _ _ _ _ i Hz) by (rewrite (proj1 HY); exact Hv). apply Nat.eqb_refl.
    - apply Nat.leb_le. apply (completes_hidden _ _ _ _ _ i Hz). rewrite (proj1 HY). unfold n in Hi. lia. }
  assert (H : completes L K nh y h).
  { assert (OKH : forall i, (i < n)%nat -> ok i (lab h i) = true).
    { apply (legal_maximiser n S edges Z T ok B B' (ofN 100 - B) h h0 HG HMZ L0 (OK0 _ H0) B0).
      - intros i s Hi Hs OKi. unfold ok in OKi. unfold Z. rewrite V1 by assumption. destruct (Nat.ltb_spec i nv) as [Hv|Hv]; cbn [andb].
        + rewrite OKi. replace (ofN 100 * M' - ofN 100 * M') with 0 by ring. split; qclra.
        + rewrite GU by assumption. assert (OKl : legal L nv i s = true).
          { unfold legal. apply Nat.leb_le in OKi. replace (i <? nv)%nat with false by (symmetry; apply Nat.ltb_ge; lia). replace (s <? L)%nat with false by (symmetry; apply Nat.ltb_ge; lia). reflexivity. }
          rewrite OKl. destruct (HB i s Hi Hs OKl). replace (V i s - 0) with (V i s) by ring. split; assumption.
      - intros i s Hi Hs OKi. unfold ok in OKi. unfold Z. rewrite V1 by assumption. destruct (Nat.ltb_spec i nv) as [Hv|Hv]; cbn [andb].
        + rewrite OKi. rewrite GU by assumption. destruct (legal L nv i s) eqn:OKl.
          * destruct (HB i s Hi Hs OKl) as [_ Q]. set (q := ofN 100 * M') in *. clearbody q. generalize dependent (ofN 100). intros. qclra.
          * set (q := ofN 100 * M') in *. replace (- ofN 100 * M) with (- (ofN 100 * M)) by ring. set (q' := ofN 100 * M) in *. clearbody q q'. generalize dependent (ofN 100). intros. qclra.
        + rewrite GU by assumption. assert (OKl : legal L nv i s = false).
          { unfold legal. apply Nat.leb_gt in OKi. replace (i <? nv)%nat with false by (symmetry; apply Nat.ltb_ge; lia). apply Nat.ltb_lt in OKi. rewrite OKi. reflexivity. }
          rewrite OKl. replace (- ofN 100 * M) with (- (ofN 100 * M)) by ring. set (q' := ofN 100 * M) in *. clearbody q'. generalize dependent (ofN 100). intros. qclra.
      - exact HT.
      - set (a := ofN n * (B + B)) in *. set (b := ofN (length edges) * (B' + B')) in *. clearbody a b. generalize dependent (ofN 100). intros. qclra.
      - generalize dependent (ofN 100). intros. qclra. }
    apply completes_intro; rewrite (proj1 HY).
    - exact (proj1 (proj1 HM)).
    - intros i Hi. specialize (OKH i ltac:(unfold n; lia)). unfold ok in OKH. apply Nat.ltb_lt in Hi. rewrite Hi in OKH. apply Nat.eqb_eq. exact OKH.
    - intros i Hi. specialize (OKH i ltac:(unfold n; lia)). unfold ok in OKH. replace (i <? nv)%nat with false in OKH by (symmetry; apply Nat.ltb_ge; lia).
      apply Nat.leb_le in OKH. pose proof (labelling_lt _ _ _ i (proj1 HM) ltac:(unfold n; lia)) as Q. unfold S, ln_states in Q. fold L K in Q. lia. }
  split; [exact H|].
  (* on completions Z differs from V by a constant *)
  set (c' := sumn n (fun i => if (i <? nv)%nat then V i (lab y i) else 0)).
  assert (SV : forall z, completes L K nh y z -> score n edges V T (lab z) = score n edges Z T (lab z) + c').
  { intros z Hz. unfold score, c'. rewrite (sumn_ext n (fun i => V i (lab z i)) (fun i => Z i (lab z i) + if (i <? nv)%nat then V i (lab y i) else 0)).
    - rewrite sumn_plus. ring.
    - intros i Hi. unfold Z. assert (Ls : (lab z i < S)%nat) by (apply (labelling_lt n); [apply (completes_labelling _ _ _ _ _ _ HY Hz)|exact Hi]).
      rewrite V1 by assumption. destruct (Nat.ltb_spec i nv) as [Hv|Hv]; cbn [andb].
      + rewrite (completes_visible _ _ _ _ _ i Hz) by (rewrite (proj1 HY); exact Hv). rewrite Nat.eqb_refl. ring.
      + rewrite GU by assumption. rewrite (two_level_legal _ _ _ _ _ (HTL z Hz) i Hi). ring. }
  intros h' H'. rewrite (SV h H), (SV h' H'). destruct HMZ as [_ HMZ]. specialize (HMZ h' (completes_labelling _ _ _ _ _ _ HY H')). clearbody c'. qclra.
Qed.
End Core.

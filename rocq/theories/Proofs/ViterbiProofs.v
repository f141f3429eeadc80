From Verif Require Import Model.Viterbi Spec.Energy Proofs.Arrays Proofs.EnergyProofs Proofs.LossProofs.

(** value added by the samples after the first one *)
Fixpoint rest (prevlab : nat) (rows : list (list Qc)) (trans : list (list (list Qc))) (ys : list nat) : Qc :=
  match rows, trans, ys with
  | row :: rows', t :: trans', y :: ys' => get1 row y + get2 t prevlab y + rest y rows' trans' ys'
  | _, _, _ => 0
  end.

Lemma vit_max_spec tr sik : forall prev j ind m i' v',
  vit_max prev sik tr j ind m = (i', v') ->
  (forall b, m = Some b -> exists v, v' = Some v /\ b <= v) /\
  (prev <> [] -> exists v, v' = Some v) /\
  (forall q v, (q < length prev)%nat -> v' = Some v -> get1 prev q + sik + tr (j + q)%nat <= v) /\
  (forall v, v' = Some v -> (m = Some v /\ i' = ind) \/
      exists q, (q < length prev)%nat /\ i' = (j + q)%nat /\ v = get1 prev q + sik + tr (j + q)%nat).
Proof.
  induction prev as [|p prev IH]; simpl; intros j ind m i' v' H.
  - injection H as <- <-. split; [intros b ->; exists b; split; auto; apply Qcle_refl|].
    split; [congruence|]. split; [intros; lia|]. intros v ->. auto.
  - set (c := p + sik + tr j) in *.
    assert (K : (vit_max prev sik tr (S j) j (Some c) = (i', v') /\ forall b, m = Some b -> b < c) \/
                (exists b, m = Some b /\ c <= b /\ vit_max prev sik tr (S j) ind (Some b) = (i', v'))).
    { destruct m as [b|]; simpl in H.
      - destruct (Qcltb_spec b c) as [L|L]; [left|right].
        + split; auto. intros b' E; injection E as <-; auto.
        + exists b. auto.
      - left. split; auto. discriminate. }
    destruct K as [[K Hb]|[b [Em [Hc K]]]].
    + destruct (IH _ _ _ _ _ K) as [H1 [H2 [H3 H4]]].
      destruct (H1 c eq_refl) as [v [Ev Hv]].
      split; [intros b E; exists v; split; auto; specialize (Hb b E); qclra|].
      split; [intros _; eauto|]. split.
      * intros [|q] w Hq E.
        { rewrite Nat.add_0_r. unfold get1; simpl. fold c. rewrite Ev in E. injection E as <-. exact Hv. }
        { replace (j + S q)%nat with (S j + q)%nat by lia. unfold get1; simpl. fold (get1 prev q).
          apply H3; auto. lia. }
      * intros w E. destruct (H4 w E) as [[E1 E2]|[q [Hq [E1 E2]]]].
        { right. exists O. rewrite Nat.add_0_r. injection E1 as <-. repeat split; auto. lia. }
        { right. exists (S q). replace (j + S q)%nat with (S j + q)%nat by lia. repeat split; auto. lia. }
    + destruct (IH _ _ _ _ _ K) as [H1 [H2 [H3 H4]]].
      destruct (H1 b eq_refl) as [v [Ev Hv]].
      split; [intros b' E; rewrite Em in E; injection E as <-; eauto|].
      split; [intros _; eauto|]. split.
      * intros [|q] w Hq E.
        { rewrite Nat.add_0_r. unfold get1; simpl. fold c. rewrite Ev in E. injection E as <-. qclra. }
        { replace (j + S q)%nat with (S j + q)%nat by lia. unfold get1; simpl. fold (get1 prev q).
          apply H3; auto. lia. }
      * intros w E. destruct (H4 w E) as [[E1 E2]|[q [Hq [E1 E2]]]].
        { left. rewrite Em. auto. }
        { right. exists (S q). replace (j + S q)%nat with (S j + q)%nat by lia. repeat split; auto. lia. }
Qed.

Lemma vit_cell_spec prev row t k : prev <> [] -> exists v j, vit_cell prev row t k = Ok (v, j) /\
  (j < length prev)%nat /\ v = get1 prev j + get1 row k + get2 t j k /\
  forall q, (q < length prev)%nat -> get1 prev q + get1 row k + get2 t q k <= v.
Proof.
  intro Hp. unfold vit_cell. destruct (vit_max prev (get1 row k) (fun j => get2 t j k) 0 0 None) as [i' v'] eqn:E.
  destruct (vit_max_spec _ _ _ _ _ _ _ _ E) as [H1 [H2 [H3 H4]]].
  destruct (H2 Hp) as [v ->]. exists v, i'. split; auto.
  destruct (H4 v eq_refl) as [[D _]|[q [Hq [-> E2]]]]; [discriminate|]. simpl in *. split; auto.
Qed.

Lemma vit_forward_spec n_states : (0 < n_states)%nat -> forall rows trans prev,
  length prev = n_states -> length trans = length rows ->
  exists fin bps, vit_forward n_states prev rows trans = Ok (fin, bps) /\ length fin = n_states /\
    length bps = length rows /\
    (forall y0 ys, length ys = length rows -> (y0 < n_states)%nat -> Forall (fun s => (s < n_states)%nat) ys ->
        get1 prev y0 + rest y0 rows trans ys <= get1 fin (last ys y0)) /\
    (forall k, (k < n_states)%nat ->
       exists y0 ys, vit_back bps k = y0 :: ys /\ length ys = length rows /\ (y0 < n_states)%nat /\
         Forall (fun s => (s < n_states)%nat) ys /\
         get1 prev y0 + rest y0 rows trans ys = get1 fin k).
Proof.
  intro Hn. induction rows as [|row rows IH]; intros trans prev Hp Ht; simpl.
  - exists prev, []. split; auto. split; auto. split; auto. split.
    + intros y0 [|? ?] HL Hy HF; [|discriminate]. simpl. rewrite Qcplus_0_r. apply Qcle_refl.
    + intros k Hk. exists k, []. simpl. repeat split; auto. ring.
  - destruct trans as [|t trans]; [discriminate|].
    assert (Hne : prev <> []) by (destruct prev; simpl in Hp; [lia|discriminate]).
    assert (EM : exists cells, mapM (vit_cell prev row t) (seq 0 n_states) = Ok cells).
    { assert (forall l, exists cells, mapM (vit_cell prev row t) l = Ok cells).
      { induction l as [|k l [cells E]]; simpl; eauto. destruct (vit_cell_spec prev row t k Hne) as [v [j [E1 _]]].
        rewrite E1, E. simpl. eauto. } auto. }
    destruct EM as [cells EM]. rewrite EM. cbn [bind].
    assert (HLc := mapM_length _ _ _ EM). rewrite seq_length in HLc.
    destruct (IH trans (map fst cells)) as [fin [bps [E [HLf [HLb [Hub Hat]]]]]];
      [rewrite map_length; exact HLc|simpl in Ht; lia|].
    rewrite E. cbn [bind fst snd]. exists fin, (map snd cells :: bps).
    assert (Cell : forall k, (k < n_states)%nat ->
       (nth k (map snd cells) O < n_states)%nat /\
       get1 (map fst cells) k = get1 prev (nth k (map snd cells) O) + get1 row k + get2 t (nth k (map snd cells) O) k /\
       forall q, (q < n_states)%nat -> get1 prev q + get1 row k + get2 t q k <= get1 (map fst cells) k).
    { intros k Hk. assert (N := mapM_nth _ _ _ k O (0, O) EM). rewrite seq_length in N.
      specialize (N Hk). rewrite seq_nth in N by exact Hk. simpl in N.
      destruct (vit_cell_spec prev row t k Hne) as [v [j [E1 [Hj [Ev Hm]]]]]. rewrite E1 in N.
      injection N as N. unfold get1 at 1. rewrite (nth_map_in fst _ _ (0, O)) by lia.
      unfold get1 at 5. rewrite (nth_map_in snd _ _ (0, O)), (nth_map_in fst _ _ (0, O)) by lia. rewrite <- N. simpl.
      rewrite Hp in *. auto. }
    split; auto. split; auto. split; [simpl; lia|]. split.
    + intros y0 [|y1 ys] HL Hy HF; [discriminate|]. inversion HF; subst.
      specialize (Hub y1 ys ltac:(simpl in HL; lia) H1 H2).
      destruct (Cell y1 H1) as [_ [_ Cm]]. specialize (Cm y0 Hy).
      change (last (y1 :: ys) y0) with (match ys with [] => y1 | _ => last ys y0 end).
      replace (match ys with [] => y1 | _ => last ys y0 end) with (last ys y1).
      * simpl. qclra.
      * clear. destruct ys as [|b ys]; auto. revert b. induction ys as [|c ys IH]; intro b; auto.
        change (last (b :: c :: ys) y1) with (last (c :: ys) y1). change (last (b :: c :: ys) y0) with (last (c :: ys) y0). apply IH.
    + intros k Hk. destruct (Hat k Hk) as [y1 [ys [E1 [HL [Hy1 [HF Ev]]]]]].
      destruct (Cell y1 Hy1) as [C1 [C2 _]].
      exists (nth y1 (map snd cells) O), (y1 :: ys). simpl. rewrite E1. simpl. split; auto. split; [lia|].
      split; auto. split; [constructor; auto|]. rewrite <- Ev, C2. ring.
Qed.

(** the list of chain edges *)

Lemma chain_edges_nth n e : (e < n - 1)%nat -> nth e (chain_edges n) (0, 0)%nat = (e, S e).
Proof. intro H. unfold chain_edges. rewrite (nth_map_in _ _ _ O) by (rewrite seq_length; exact H). rewrite seq_nth by exact H. reflexivity. Qed.
Lemma chain_edges_length n : length (chain_edges n) = (n - 1)%nat.
Proof. unfold chain_edges. rewrite map_length, seq_length. reflexivity. Qed.
Lemma chain_edges_ok n : graph_edges n (chain_edges n).
Proof.
  unfold graph_edges, chain_edges. apply Forall_forall. intros e He. apply in_map_iff in He.
  destruct He as [i [<- Hi]]. apply in_seq in Hi. simpl. lia.
Qed.

Lemma rest_sumn rows trans : length trans = length rows -> forall ys y0, length ys = length rows ->
  rest y0 rows trans ys =
  sumn (length rows) (fun i => get1 (nth i rows []) (nth i ys O)) +
  sumn (length rows) (fun i => get2 (nth i trans []) (nth i (y0 :: ys) O) (nth (S i) (y0 :: ys) O)).
Proof.
  revert trans. induction rows as [|row rows IH]; intros [|t trans] HL [|y ys] y0 HY; try discriminate; simpl length.
  - rewrite !sumn_O. simpl. ring.
  - rewrite !sumn_S_l. cbn [rest nth]. rewrite (IH trans) by (simpl in *; lia).
    replace (sumn (length rows) (fun i => get2 (nth i trans []) (nth i (y :: ys) O) (nth (S i) (y :: ys) O)))
      with (sumn (length rows) (fun i => get2 (nth i trans []) (nth i (y :: ys) O) (nth i ys O))) by reflexivity.
    set (A := sumn _ _). set (B := sumn _ _). ring.
Qed.

Lemma viterbi_exact U trans n k :
  mat_ok U -> mrows U = n -> mcols U = k -> (0 < n)%nat -> (0 < k)%nat -> length trans = (n - 1)%nat ->
  exists y, viterbi U trans = Ok y /\
    maximiser n k (chain_edges n) (mget U) (fun e => get2 (nth e trans [])) y.
Proof.
  intros HU Hr Hc Hn Hk Ht. destruct HU as [HL HF]. rewrite Hr in HL. rewrite Hc in HF.
  unfold viterbi. destruct (mdat U) as [|row0 rows] eqn:EU; [simpl in HL; lia|].
  simpl in HL.
  assert (HL0 : length row0 = k) by (inversion HF; assumption).
  assert (EL : length rows = (n - 1)%nat) by lia.
  rewrite Hc.
  destruct (vit_forward_spec k Hk rows trans row0 HL0) as [fin [bps [E [HLf [HLb [Hub Hat]]]]]]; [lia|].
  rewrite E. cbn [bind fst snd].
  destruct (np_argmax_ok fin) as [m Em]; [lia|]. rewrite Em. cbn [bind].
  destruct (np_argmax_spec _ _ Em) as [Hm1 [Hm2 _]]. rewrite HLf in *.
  destruct (Hat m Hm1) as [y0 [ys [E1 [HLy [Hy0 [HFy Ev]]]]]].
  exists (vit_back bps m). split; [reflexivity|]. rewrite E1.
  assert (SC : forall z0 zs, length zs = (n - 1)%nat ->
     score n (chain_edges n) (mget U) (fun e => get2 (nth e trans [])) (lab (z0 :: zs)) =
     get1 row0 z0 + rest z0 rows trans zs).
  { intros z0 zs Hz. unfold score. rewrite chain_edges_length, rest_sumn by lia. rewrite EL.
    rewrite (sumn_ext (n - 1) (fun e => get2 (nth e trans []) (lab (z0 :: zs) (fst (nth e (chain_edges n) (0, 0)%nat)))
       (lab (z0 :: zs) (snd (nth e (chain_edges n) (0, 0)%nat))))
       (fun i => get2 (nth i trans []) (nth i (z0 :: zs) O) (nth (S i) (z0 :: zs) O)))
      by (intros e He; rewrite chain_edges_nth by exact He; reflexivity).
    replace n with (S (n - 1)) at 1 by lia. rewrite sumn_S_l. unfold mget, lab. rewrite EU. unfold get2 at 1 2. cbn [nth].
    unfold get1. ring. }
  split.
  - split; [simpl; lia|]. constructor; auto.
  - intros z [HLz HFz]. destruct z as [|z0 zs]; [simpl in HLz; lia|]. inversion HFz; subst.
    simpl in HLz. rewrite !SC by lia. rewrite Ev.
    specialize (Hub z0 zs ltac:(lia) H1 H2). eapply Qcle_trans; [exact Hub|].
    apply Hm2. clear - H1 H2. revert z0 H1. induction zs; intros z0 H1; simpl; auto.
    inversion H2; subst. destruct zs; auto.
Qed.

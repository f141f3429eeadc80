From Verif Require Import Model.QP Spec.QPSpec Proofs.Arrays Proofs.QPProofs.

Lemma group_slack_nonneg w g : 0 <= group_slack w g.
Proof. unfold group_slack. destruct g; cbn [map fold_right]. apply Qcle_refl. eapply Qcle_trans; [|apply Qcmax_ge_r].
  induction g; cbn [map fold_right]. apply Qcle_refl. eapply Qcle_trans; [exact IHg|apply Qcmax_ge_r]. Qed.
Lemma group_slack_ge w g c : In c g -> violation w c <= group_slack w g.
Proof.
  unfold group_slack. induction g as [|b g IH]; [intros []|]. cbn [map fold_right]. intros [->|H].
  - apply Qcmax_ge_l.
  - eapply Qcle_trans; [apply IH; auto|apply Qcmax_ge_r].
Qed.
Lemma group_slack_lub w g x : 0 <= x -> (forall c, In c g -> violation w c <= x) -> group_slack w g <= x.
Proof.
  intros H0 H. unfold group_slack. induction g as [|b g IH]; auto. cbn [map fold_right]. apply Qcmax_lub.
  - apply H. simpl; auto.
  - apply IH. intros c Hc. apply H. simpl; auto.
Qed.
Lemma covers_group_slack w groups : covers w groups (map (group_slack w) groups).
Proof.
  unfold covers. induction groups; cbn [map]; constructor; auto. split. apply group_slack_nonneg.
  intros c Hc. apply group_slack_ge; auto.
Qed.

(** the dual point that puts all the mass of a group on its most violated constraint *)
Fixpoint pick (C : Qc) (w : list Qc) (g : list (list Qc * Qc)) : list Qc :=
  match g with
  | [] => []
  | c :: r => if Qcltb (group_slack w r) (violation w c) then C :: vzero (length r) else 0 :: pick C w r
  end.
Lemma pick_length C w g : length (pick C w g) = length g.
Proof. induction g; simpl; auto. destruct (Qcltb _ _); simpl; rewrite ?vzero_length; auto. Qed.
Lemma lsum_vzero n : lsum (vzero n) = 0.
Proof. unfold vzero. rewrite lsum_repeat. ring. Qed.
Lemma pick_sum C w g : 0 <= C -> lsum (pick C w g) <= C.
Proof.
  intro H. induction g; simpl; auto. destruct (Qcltb _ _); simpl.
  - rewrite lsum_vzero. apply Qceq_le. ring.
  - rewrite Qcplus_0_l. auto.
Qed.
Lemma pick_nonneg C w g : 0 <= C -> Forall (fun v => 0 <= v) (pick C w g).
Proof.
  intro H. induction g; simpl; auto. destruct (Qcltb _ _); constructor; auto.
  - apply Forall_forall. intros v Hv. apply repeat_spec in Hv. subst. apply Qcle_refl.
  - apply Qcle_refl.
Qed.
Lemma pick_value C w g : dot (pick C w g) (map (violation w) g) = C * group_slack w g.
Proof.
  induction g as [|c r IH]; [change (0 = C * 0); ring|]. cbn [pick map].
  assert (E : group_slack w (c :: r) = Qcmax (violation w c) (group_slack w r)) by reflexivity.
  rewrite E. unfold Qcmax. destruct (Qcltb_spec (group_slack w r) (violation w c)) as [H|H].
  - rewrite dot_cons, dot_vzero_l. destruct (Qcleb_spec (violation w c) (group_slack w r)) as [H'|H'].
    + exfalso. apply (Qclt_not_le _ _ H); auto.
    + ring.
  - rewrite dot_cons, IH. destruct (Qcleb_spec (violation w c) (group_slack w r)) as [H'|H'].
    + ring.
    + exfalso. apply (Qclt_not_le _ _ H'); auto.
Qed.

(** block sums *)
Lemma block_sum {A} (groups : list (list A)) (bs : list (list Qc)) k i :
  map (@length _) bs = map (@length _) groups ->
  sumn (length (concat bs)) (fun c => ind (nth c (owners_from k (map (@length _) groups)) O =? i)%nat * get1 (concat bs) c) =
  if (k <=? i)%nat then lsum (nth (i - k) bs []) else 0.
Proof.
  revert groups k. induction bs as [|b bs IH]; intros [|g gs] k E; try discriminate.
  - cbn [concat length]. rewrite sumn_O. destruct (k <=? i)%nat; auto. destruct (i - k)%nat; reflexivity.
  - cbn [map] in E. injection E as E1 E2. cbn [map owners_from concat]. rewrite app_length, sumn_split.
    rewrite (sumn_ext (length b) _ (fun c => ind (k =? i)%nat * get1 b c)).
    2:{ intros c Hc. rewrite app_nth1 by (rewrite repeat_length; congruence).
        rewrite nth_indep with (d' := k) by (rewrite repeat_length; congruence). rewrite nth_repeat.
        unfold get1. rewrite app_nth1 by auto. reflexivity. }
    rewrite (sumn_ext (length (concat bs)) _ (fun c => ind (nth c (owners_from (S k) (map (@length _) gs)) O =? i)%nat * get1 (concat bs) c)).
    2:{ intros c Hc. rewrite app_nth2 by (rewrite repeat_length; lia). rewrite repeat_length, E1.
        replace (length g + c - length g)%nat with c by lia. unfold get1. rewrite app_nth2 by lia.
        replace (length g + c - length b)%nat with c by lia. reflexivity. }
    rewrite IH by auto. rewrite sumn_mult_l, <- lsum_get.
    destruct (Nat.lt_trichotomy k i) as [H|[H|H]].
    + rewrite (proj2 (Nat.eqb_neq k i)) by lia. rewrite (proj2 (Nat.leb_le k i)), (proj2 (Nat.leb_le (S k) i)) by lia.
      replace (i - k)%nat with (S (i - S k)) by lia. cbn [nth]. unfold ind. ring.
    + subst i. rewrite Nat.eqb_refl, (proj2 (Nat.leb_le k k)) by lia. rewrite (proj2 (Nat.leb_gt (S k) k)) by lia.
      rewrite Nat.sub_diag. cbn [nth]. unfold ind. ring.
    + rewrite (proj2 (Nat.eqb_neq k i)) by lia. rewrite (proj2 (Nat.leb_gt k i)), (proj2 (Nat.leb_gt (S k) i)) by lia.
      unfold ind. ring.
Qed.
Lemma dot_concat_groups {A B} (f : A -> list Qc) (h : B -> Qc) (l : list A) (m : list (list B)) :
  Forall2 (fun a g => length (f a) = length g) l m ->
  dot (concat (map f l)) (map h (concat m)) = lsum (zipw (fun a g => dot (f a) (map h g)) l m).
Proof.
  induction 1; [reflexivity|]. cbn [map concat zipw]. rewrite map_app, dot_app by (rewrite map_length; auto).
  rewrite IHForall2. reflexivity.
Qed.

(** the QP the code poses, in terms of groups *)
Definition nslack_of (C : Qc) (neg : option (list nat)) (n : nat) (groups : list (list (list Qc * Qc))) (reg : Qc) : res qp :=
  n_slack_problem C neg n (map fst (concat groups)) (map snd (concat groups)) (map (@length _) groups) reg.
Definition dual_ok (d : nat) (C : Qc) (neg : option (list nat)) (n : nat) (groups : list (list (list Qc * Qc))) (a : list Qc) : Prop :=
  let psis := map fst (concat groups) in
  length a = length psis /\ (forall c, (c < length psis)%nat -> 0 <= get1 a c) /\
    (forall i, (i < n)%nat -> sumn (length psis) (fun c => ind (nth c (owners (map (@length _) groups)) O =? i)%nat * get1 a c) <= C) /\
    (forall idx, neg = Some idx -> forall i, In i idx -> get1 (comb d a psis) i <= 0).
Definition dual_value (d : nat) (groups : list (list (list Qc * Qc))) (a : list Qc) : Qc :=
  dot (map snd (concat groups)) a - normsq (comb d a (map fst (concat groups))) / (1 + 1).

Lemma nslack_of_feasible d C neg n groups reg p a :
  concat groups <> [] -> Forall (fun c => length (fst c) = d) (concat groups) ->
  nslack_of C neg n groups reg = Ok p ->
  (qp_feasible p a <-> dual_ok d C neg n groups a) /\
  (length a = length (concat groups) -> qp_value p a = reg * normsq a / (1 + 1) - dual_value d groups a) /\ (length groups <= n)%nat.
Proof.
  intros HN HF HP.
  assert (HF' : Forall (fun u => length u = d) (map fst (concat groups))).
  { apply Forall_forall. intros u Hu. apply in_map_iff in Hu. destruct Hu as [c [<- Hc]]. rewrite Forall_forall in HF. auto. }
  assert (HN' : map fst (concat groups) <> []) by (destruct (concat groups); [congruence|discriminate]).
  split; [|split].
  - apply (nslack_feasible_iff C neg n _ (map snd (concat groups)) _ reg p d a); auto. rewrite !map_length. reflexivity.
  - intro Ha. unfold nslack_of, n_slack_problem in HP. rewrite (vstack_ok d) in HP by auto. cbn [bind] in HP.
    apply bind_ok in HP. destruct HP as [u [_ HP]]. apply bind_ok in HP. destruct HP as [N [_ HP]]. injection HP as <-.
    rewrite qp_obj by (auto; rewrite map_length; auto). unfold dual_value.
    set (x := normsq (comb d a (map fst (concat groups)))). set (y := dot (map snd (concat groups)) a). field. discriminate.
  - unfold nslack_of, n_slack_problem in HP. apply bind_ok in HP. destruct HP as [Psi [_ HP]].
    destruct (Nat.leb_spec (length (map (@length _) groups)) n) as [H|H]; [|discriminate]. rewrite map_length in H. exact H.
Qed.

Lemma dual_entry_le d C n groups a c : dual_ok d C None n groups a -> (length groups <= n)%nat ->
  (c < length (concat groups))%nat -> get1 a c <= C.
Proof.
  intros [La [A1 [A2 _]]] Hn Hc. rewrite map_length in La, A1, A2.
  destruct (owners_from_nth groups O c ([], 0) Hc) as [j [Hj [E1 _]]].
  eapply Qcle_trans; [|apply (A2 j); lia].
  eapply Qcle_trans; [|apply (sumn_term_le (length (concat groups)) (fun c => ind (nth c (owners (map (@length _) groups)) O =? j)%nat * get1 a c) c); auto].
  - cbv beta. unfold owners. rewrite E1. cbn [Nat.add]. rewrite Nat.eqb_refl. unfold ind. rewrite Qcmult_1_l. apply Qcle_refl.
  - intros i Hi. apply Qcmult_nonneg; auto. unfold ind. destruct (_ =? _)%nat; discriminate.
Qed.
Lemma lsum_concat ls : lsum (concat ls) = lsum (map lsum ls).
Proof. induction ls; simpl; auto. rewrite lsum_app, IHls. reflexivity. Qed.

Lemma strong_duality_reg d C n groups a r :
  0 <= C -> 0 <= r -> concat groups <> [] -> Forall (fun c => length (fst c) = d) (concat groups) -> (length groups <= n)%nat ->
  dual_ok d C None n groups a ->
  (forall b, dual_ok d C None n groups b ->
     dual_value d groups b - r * normsq b / (1 + 1) <= dual_value d groups a - r * normsq a / (1 + 1)) ->
  C * lsum (map (group_slack (comb d a (map fst (concat groups)))) groups)
    + normsq (comb d a (map fst (concat groups))) / (1 + 1) <= dual_value d groups a + r * (ofN n * (C * C)).
Proof.
  intros HC Hr HN HF Hn Ha Hopt.
  set (psis := map fst (concat groups)) in *. set (losses := map snd (concat groups)).
  assert (HF' : Forall (fun u => length u = d) psis).
  { apply Forall_forall. intros u Hu. apply in_map_iff in Hu. destruct Hu as [c [<- Hc]]. rewrite Forall_forall in HF. auto. }
  assert (LL : length losses = length psis) by (unfold psis, losses; rewrite !map_length; reflexivity).
  set (w := comb d a psis). set (b := concat (map (pick C w) groups)).
  assert (Lb : length b = length psis).
  { unfold b, psis. rewrite map_length. generalize w. clear. intro w. induction groups; simpl; auto. rewrite !app_length, pick_length, IHgroups. reflexivity. }
  assert (PN : forall c, (c < length psis)%nat -> 0 <= get1 b c).
  { intros c Hc. assert (I : In (get1 b c) b) by (apply nth_In; lia). unfold b in I at 2.
    apply in_concat in I. destruct I as [l [Hl I]]. apply in_map_iff in Hl. destruct Hl as [g [<- _]].
    assert (P := pick_nonneg C w g HC). rewrite Forall_forall in P. auto. }
  assert (Hb : dual_ok d C None n groups b).
  { split; auto. split; [exact PN|]. split; [|discriminate].
    intros i Hi. fold psis. rewrite <- Lb. unfold b, owners. rewrite block_sum.
    + cbn [Nat.leb]. rewrite Nat.sub_0_r. destruct (Nat.lt_ge_cases i (length groups)) as [L|L].
      * rewrite (nth_map_in _ groups i []) by auto. apply pick_sum; auto.
      * rewrite nth_overflow by (rewrite map_length; auto). exact HC.
    + rewrite map_map. apply map_ext. intro g. apply pick_length. }
  assert (La : length a = length psis) by apply Ha.
  assert (FO : dot losses b - dot w (comb d b psis) <= dot losses a - normsq w + r * (dot a b - normsq a)).
  { apply first_order; auto. intros t T0 T1. apply Hopt.
    assert (Lt : length (vadd a (vscale t (vsub b a))) = length psis) by (rewrite vadd_length; rewrite ?vscale_length, ?vsub_length; congruence).
    assert (G : forall c, get1 (vadd a (vscale t (vsub b a))) c = (1 - t) * get1 a c + t * get1 b c).
    { intro c. rewrite get1_vadd by (rewrite vscale_length, vsub_length; congruence). rewrite get1_vscale, get1_vsub by congruence. ring. }
    destruct Ha as [_ [A1 [A2 _]]]. destruct Hb as [_ [B1 [B2 _]]].
    split; [exact Lt|]. split; [|split; [|discriminate]].
    - intros c Hc. rewrite G. specialize (A1 c Hc). specialize (B1 c Hc).
      assert (P1 : 0 <= (1 - t) * get1 a c) by (apply Qcmult_nonneg; auto; qclra).
      assert (P2 : 0 <= t * get1 b c) by (apply Qcmult_nonneg; auto; qclra).
      set (u := (1 - t) * get1 a c) in *. set (v := t * get1 b c) in *. clearbody u v. qclra.
    - intros i Hi. specialize (A2 i Hi). specialize (B2 i Hi). fold psis in A2, B2 |- *.
      rewrite (sumn_ext _ _ (fun c => (1 - t) * (ind (nth c (owners (map (@length _) groups)) O =? i)%nat * get1 a c) + t * (ind (nth c (owners (map (@length _) groups)) O =? i)%nat * get1 b c))).
      2:{ intros c Hc. rewrite G. ring. }
      rewrite sumn_plus, !sumn_mult_l.
      set (sa := sumn _ _) in A2 |- *. set (sb := sumn _ _) in B2 |- *. clearbody sa sb.
      assert (P1 : (1 - t) * sa <= (1 - t) * C) by (rewrite (Qcmult_comm (1 - t) sa), (Qcmult_comm (1 - t) C); apply Qcmult_le_compat_r; auto; qclra).
      assert (P2 : t * sb <= t * C) by (rewrite (Qcmult_comm t sb), (Qcmult_comm t C); apply Qcmult_le_compat_r; auto; qclra).
      replace ((1 - t) * C) with (C - t * C) in P1 by ring.
      set (x1 := (1 - t) * sa) in *. set (x2 := t * sb) in *. set (x3 := t * C) in *. clearbody x1 x2 x3. qclra. }
  assert (EV : dot losses b - dot w (comb d b psis) = C * lsum (map (group_slack w) groups)).
  { rewrite <- (violation_sum d) by (auto; apply comb_length).
    transitivity (dot b (map (violation w) (concat groups))).
    - rewrite dot_get by (rewrite map_length; unfold psis in Lb; rewrite map_length in Lb; auto). rewrite Lb. apply sumn_ext. intros c Hc. f_equal.
      unfold get1 at 2. unfold psis in Hc. rewrite map_length in Hc. rewrite (nth_map_in _ (concat groups) c ([], 0)) by auto.
      f_equal. unfold psis, losses, get1. rewrite (nth_map_in fst _ c ([], 0)), (nth_map_in snd _ c ([], 0)) by auto.
      destruct (nth c (concat groups) ([], 0)); reflexivity.
    - unfold b. rewrite dot_concat_groups.
      + generalize w. clear. intro w. induction groups as [|g gs IH]; [change (0 = C * 0); ring|]. cbn [map zipw lsum]. rewrite IH, pick_value. ring.
      + generalize w. clear. intro w. induction groups; constructor; auto. apply pick_length. }
  rewrite EV in FO.
  assert (DB : dot a b - normsq a <= ofN n * (C * C)).
  { assert (P := normsq_nonneg a). assert (D : dot a b <= ofN n * (C * C)).
    { rewrite dot_get by congruence. rewrite La.
      apply Qcle_trans with (sumn (length psis) (fun c => C * get1 b c)).
      { apply sumn_le. intros c Hc. apply Qcmult_le_compat_r; [|apply PN; auto].
        apply (dual_entry_le d C n groups); auto. unfold psis in Hc. rewrite map_length in Hc. exact Hc. }
      rewrite sumn_mult_l. rewrite <- Lb, <- lsum_get. unfold b. rewrite lsum_concat, map_map.
      assert (Q : lsum (map (fun g => lsum (pick C w g)) groups) <= ofN (length groups) * C).
      { rewrite <- lsum_repeat. generalize w. clear - HC. intro w. induction groups; cbn [map lsum repeat length]. apply Qcle_refl.
        assert (P := pick_sum C w a HC). apply Qcplus_le_compat; auto. }
      assert (R : ofN (length groups) * C <= ofN n * C). { apply Qcmult_le_compat_r; auto. apply ofZ_le. lia. }
      rewrite (Qcmult_comm C (lsum _)). replace (ofN n * (C * C)) with (ofN n * C * C) by ring.
      apply Qcmult_le_compat_r; auto. eapply Qcle_trans; eauto. }
    qclra. }
  assert (DB' : r * (dot a b - normsq a) <= r * (ofN n * (C * C))).
  { rewrite (Qcmult_comm r (dot a b - normsq a)), (Qcmult_comm r (ofN n * (C * C))). apply Qcmult_le_compat_r; auto. }
  unfold dual_value. fold psis losses. fold w. set (s := lsum _) in *. clearbody s.
  replace (dot losses a - normsq w / (1 + 1)) with (dot losses a - normsq w + normsq w / (1 + 1)) by (field; discriminate).
  set (h := normsq w / (1 + 1)) in *. set (cs := C * s) in *. set (x := r * (dot a b - normsq a)) in *.
  set (y := r * (ofN n * (C * C))) in *. clearbody h cs x y. qclra.
Qed.

Lemma strong_duality d C n groups a :
  0 <= C -> concat groups <> [] -> Forall (fun c => length (fst c) = d) (concat groups) -> (length groups <= n)%nat ->
  dual_ok d C None n groups a ->
  (forall b, dual_ok d C None n groups b -> dual_value d groups b <= dual_value d groups a) ->
  dual_value d groups a = C * lsum (map (group_slack (comb d a (map fst (concat groups)))) groups)
                          + normsq (comb d a (map fst (concat groups))) / (1 + 1).
Proof.
  intros HC HN HF Hn Ha Hopt. apply Qcle_antisym.
  - destruct Ha as [A0 [A1 [A2 _]]].
    apply (weak_duality_nslack d C n groups a (comb d a (map fst (concat groups))) (map (group_slack (comb d a (map fst (concat groups)))) groups)); auto.
    + apply Forall_forall. intros u Hu. apply in_map_iff in Hu. destruct Hu as [c [<- Hc]]. rewrite Forall_forall in HF. auto.
    + apply comb_length.
    + apply covers_group_slack.
  - eapply Qcle_trans; [apply (strong_duality_reg d C n groups a 0); auto|].
    + apply Qcle_refl.
    + intros b Hb. specialize (Hopt b Hb). replace (0 * normsq b / (1 + 1)) with 0 by (field; discriminate).
      replace (0 * normsq a / (1 + 1)) with 0 by (field; discriminate). qclra.
    + apply Qceq_le. ring.
Qed.

From Verif Require Import Model.OneSlack Spec.OneSlackSpec Proofs.Arrays Proofs.LossProofs Proofs.MaxProdProofs Proofs.QPProofs Proofs.NSlackProofs5.

Fixpoint keepi {A} (f : nat -> bool) (k : nat) (l : list A) : list A :=
  match l with
  | [] => []
  | x :: r => if f k then keepi f (S k) r else x :: keepi f (S k) r
  end.
Lemma keepi_app {A} f k (l1 l2 : list A) : keepi f k (l1 ++ l2) = keepi f k l1 ++ keepi f (k + length l1) l2.
Proof.
  revert k. induction l1 as [|x l1 IH]; intro k; cbn [app keepi length]. rewrite Nat.add_0_r. reflexivity.
  rewrite IH. replace (S k + length l1)%nat with (k + S (length l1))%nat by lia. destruct (f k); reflexivity.
Qed.
Lemma keepi_length_eq {A B} f (l : list A) : forall k (r : list B), length l = length r -> length (keepi f k l) = length (keepi f k r).
Proof.
  induction l as [|x l IH]; intros k [|y r] E; try discriminate; auto. cbn [keepi]. cbn [length] in E. destruct (f k); cbn [length]; auto.
Qed.
Lemma del_at_mid {A} (l1 : list A) x l2 : del_at (length l1) (l1 ++ x :: l2) = l1 ++ l2.
Proof.
  unfold del_at. rewrite firstn_app, Nat.sub_diag, firstn_all, firstn_O, app_nil_r. f_equal.
  rewrite skipn_app. replace (S (length l1) - length l1)%nat with 1%nat by lia. rewrite skipn_all2 by lia. reflexivity.
Qed.
Lemma list_snoc {A} (l : list A) n : length l = S n -> exists l' x, l = l' ++ [x] /\ length l' = n.
Proof.
  intro H. destruct (exists_last (l := l)) as [l' [x E]]. { intro; subst; discriminate. }
  exists l', x. split; auto. subst. rewrite app_length in H. cbn [length] in H. lia.
Qed.
Lemma del_loop_keepi {A} f n : forall (c1 c2 : list A) (h1 h2 : list (list Qc)), length c1 = n -> length h1 = n ->
  del_loop (rev (filter f (seq 0 n))) (c1 ++ c2) (h1 ++ h2) = (keepi f 0 c1 ++ c2, keepi f 0 h1 ++ h2).
Proof.
  induction n as [|n IH]; intros c1 c2 h1 h2 L1 L2.
  - destruct c1; [|discriminate]. destruct h1; [|discriminate]. reflexivity.
  - destruct (list_snoc _ _ L1) as [c [x [-> Lc]]]. destruct (list_snoc _ _ L2) as [h [y [-> Lh]]].
    rewrite seq_S, filter_app, rev_app_distr, !keepi_app. cbn [Nat.add filter]. rewrite Lc, Lh, <- !app_assoc. cbn [keepi].
    destruct (f n); cbn [rev app del_loop].
    + assert (E1 := del_at_mid c x c2). rewrite Lc in E1. assert (E2 := del_at_mid h y h2). rewrite Lh in E2.
      rewrite E1, E2. apply IH; auto.
    + apply (IH c (x :: c2) h (y :: h2)); auto.
Qed.
Lemma del_loop_all {A} f (cs : list A) hs : length cs = length hs ->
  del_loop (rev (filter f (seq 0 (length cs)))) cs hs = (keepi f 0 cs, keepi f 0 hs).
Proof.
  intro L. assert (H := del_loop_keepi f (length cs) cs [] hs [] eq_refl (eq_sym L)). rewrite !app_nil_r in H. exact H.
Qed.

Lemma record_extended alphas a : length (alphas ++ [[]]) = length a -> record_duals (alphas ++ [[]]) a = extended alphas a.
Proof.
  unfold extended. generalize (alphas ++ [[]]). intro l. revert a. induction l as [|h l IH]; intros [|v a] E; try discriminate; auto.
  cbn [record_duals zipw]. rewrite IH by (cbn [length] in E; lia). reflexivity.
Qed.
Lemma record_length alphas : forall a, length (record_duals alphas a) = length alphas.
Proof. induction alphas as [|h l IH]; intros [|v a]; cbn [record_duals length]; auto. Qed.

Lemma last_n_peak window h v : np_max (last_n window h) = Ok v -> peak window h v.
Proof.
  intro H. apply np_max_spec in H. exists (firstn (length h - window) h), (last_n window h). unfold last_n in *.
  split; [symmetry; apply firstn_skipn|]. split; [rewrite skipn_length; lia|exact H].
Qed.
Lemma max_active_peaks window alphas ma : max_active window alphas = Ok ma -> Forall2 (peak window) alphas ma.
Proof.
  unfold max_active. revert ma. induction alphas as [|h l IH]; intros ma H; cbn [mapM] in H.
  - injection H as <-. constructor.
  - apply bind_ok in H. destruct H as [v [E H]]. apply bind_ok in H. destruct H as [r [E2 H]]. injection H as <-.
    constructor; auto. apply last_n_peak; auto.
Qed.
Lemma max_active_ok window alphas : window <> O -> Forall (fun h => h <> []) alphas -> exists ma, max_active window alphas = Ok ma.
Proof.
  intros HW HF. unfold max_active. apply mapM_total. intros h Hh. rewrite Forall_forall in HF. specialize (HF h Hh).
  apply np_max_ok. unfold last_n. rewrite skipn_length. destruct h; [congruence|]. cbn [length]. lia.
Qed.
Lemma extended_nonempty alphas a : Forall (fun h => h <> []) (extended alphas a).
Proof.
  unfold extended. generalize (alphas ++ [[]]). intro l. revert a. induction l as [|h l IH]; intros [|v a]; cbn [zipw]; constructor; auto.
  destruct h; discriminate.
Qed.
Lemma zipw_len {A B C} (f : A -> B -> C) l : forall r, length (zipw f l r) = Nat.min (length l) (length r).
Proof. induction l as [|x l IH]; intros [|y r]; cbn [zipw length Nat.min]; auto. Qed.
Lemma extended_length alphas a : length (extended alphas a) = Nat.min (S (length alphas)) (length a).
Proof. unfold extended. rewrite zipw_len, app_length. cbn [length]. f_equal. lia. Qed.

Lemma keepi_combine {A} (limit : Qc) (ma : list Qc) : forall (cs : list A) (hs : list (list Qc)) k full,
  length cs = length ma -> length hs = length ma -> (forall i, (i < length ma)%nat -> get1 full (k + i) = get1 ma i) ->
  combine (keepi (fun i => Qcltb (get1 full i) limit) k cs) (keepi (fun i => Qcltb (get1 full i) limit) k hs) =
  map snd (filter (fun q => Qcleb limit (fst q)) (combine ma (combine cs hs))).
Proof.
  induction ma as [|v ma IH]; intros [|c cs] [|h hs] k full L1 L2 HG; try discriminate; auto.
  cbn [keepi combine filter fst]. assert (E := HG O ltac:(cbn [length]; lia)). rewrite Nat.add_0_r in E. cbn [get1 nth] in E.
  change (get1 (v :: ma) 0) with v in E. rewrite E.
  assert (IH' : forall i, (i < length ma)%nat -> get1 full (S k + i) = get1 ma i).
  { intros i Hi. specialize (HG (S i) ltac:(cbn [length]; lia)). replace (k + S i)%nat with (S k + i)%nat in HG by lia. exact HG. }
  cbn [length] in L1, L2. injection L1 as L1. injection L2 as L2.
  destruct (Qcltb_spec v limit) as [H|H], (Qcleb_spec limit v) as [H'|H'].
  - exfalso. apply (Qclt_not_le _ _ H H').
  - apply IH; auto.
  - cbn [combine map snd]. f_equal. apply IH; auto.
  - exfalso. apply (Qclt_not_le _ _ H' H).
Qed.

(** the whole behaviour of prune_constraints *)
Lemma os_prune_misaligned {A} prm (cs : list A) alphas a : S (length alphas) <> length cs -> os_prune prm cs alphas a = Err AssertionError.
Proof.
  intro H. unfold os_prune. rewrite app_length. cbn [length].
  rewrite (proj2 (Nat.eqb_neq _ _)) by lia. reflexivity.
Qed.
Lemma os_prune_window0 {A} prm (cs : list A) alphas a : o_window prm = O -> S (length alphas) = length cs -> length a = length cs ->
  os_prune prm cs alphas a = Ok (cs, extended alphas a).
Proof.
  intros HW L La. unfold os_prune. rewrite app_length. cbn [length].
  rewrite (proj2 (Nat.eqb_eq _ _)) by lia. cbn [ensure bind]. rewrite HW. cbn. rewrite record_extended; auto.
  rewrite app_length. cbn [length]. lia.
Qed.
Lemma os_prune_exact {A} prm (cs : list A) alphas a : o_window prm <> O -> S (length alphas) = length cs -> length a = length cs ->
  alphas <> [] ->
  exists cs' al' peaks strongest,
    os_prune prm cs alphas a = Ok (cs', al') /\ length cs' = length al' /\
    Forall2 (peak (o_window prm)) (extended alphas a) peaks /\ largest (tl peaks) strongest /\
    combine cs' al' = map snd (filter (fun q => Qcleb (o_threshold prm * strongest) (fst q)) (combine peaks (combine cs (extended alphas a)))).
Proof.
  intros HW L La HA. unfold os_prune. rewrite app_length. cbn [length].
  rewrite (proj2 (Nat.eqb_eq _ _)) by lia. cbn [ensure bind]. rewrite (proj2 (Nat.eqb_neq _ _)) by auto.
  rewrite record_extended by (rewrite app_length; cbn [length]; lia).
  set (hs := extended alphas a). assert (Lh : length hs = length cs) by (unfold hs; rewrite extended_length; lia).
  unfold inactive_of. destruct (max_active_ok (o_window prm) hs HW (extended_nonempty _ _)) as [ma EM]. rewrite EM. cbn [bind].
  assert (PK := max_active_peaks _ _ _ EM). assert (Lm : length ma = length hs) by (symmetry; eapply Forall2_len; eauto).
  destruct (np_max_ok (tl ma)) as [st ES].
  { destruct ma as [|v [|v2 ma]]; cbn [tl length] in *; destruct alphas; cbn [length] in *; try congruence; lia. }
  rewrite ES. cbn [bind].
  exists (keepi (fun i => Qcltb (get1 ma i) (o_threshold prm * st)) 0 cs), (keepi (fun i => Qcltb (get1 ma i) (o_threshold prm * st)) 0 hs), ma, st.
  split. { unfold below_limit. rewrite Lm, Lh. f_equal. apply del_loop_all. auto. }
  split; [apply keepi_length_eq; auto|]. split; [exact PK|]. split; [apply np_max_spec; auto|].
  apply keepi_combine; auto. congruence.
Qed.

Lemma os_prune_shape {A} prm (cs : list A) alphas a cs' al' : os_prune prm cs alphas a = Ok (cs', al') ->
  S (length alphas) = length cs /\ exists f, cs' = keepi f 0 cs /\ al' = keepi f 0 (record_duals (alphas ++ [[]]) a).
Proof.
  unfold os_prune. intro H. apply bind_ok in H. destruct H as [u [HE H]]. apply ensure_ok in HE. apply Nat.eqb_eq in HE.
  rewrite app_length in HE. cbn [length] in HE. split; [lia|].
  destruct (o_window prm =? 0)%nat.
  - injection H as <- <-. exists (fun _ => false).
    assert (K : forall B (l : list B) k, keepi (fun _ => false) k l = l) by (induction l; intros; cbn; f_equal; auto). rewrite !K. auto.
  - apply bind_ok in H. destruct H as [inact [HI H]]. injection H as E. unfold inactive_of in HI.
    apply bind_ok in HI. destruct HI as [ma [EM HI]]. apply bind_ok in HI. destruct HI as [st [ES HI]]. injection HI as <-.
    assert (Lm : length ma = length cs).
    { unfold max_active in EM. apply mapM_length in EM. rewrite EM, record_length, app_length. cbn [length]. lia. }
    unfold below_limit in E. rewrite Lm in E. rewrite del_loop_all in E by (rewrite record_length, app_length; cbn [length]; lia).
    injection E as <- <-. eauto.
Qed.
Lemma keepi_incl {A} f (l : list A) : forall k, incl (keepi f k l) l.
Proof.
  induction l as [|x l IH]; intros k y; cbn [keepi]; auto. destruct (f k); intro H; simpl. right; eapply IH; eauto.
  destruct H; auto. right; eapply IH; eauto.
Qed.
Lemma os_prune_incl {A} prm (cs : list A) alphas a cs' al' : os_prune prm cs alphas a = Ok (cs', al') -> incl cs' cs /\ length cs' = length al'.
Proof.
  intro H. apply os_prune_shape in H. destruct H as [L [f [-> ->]]]. split; [apply keepi_incl|].
  apply keepi_length_eq. rewrite record_length, app_length. cbn [length]. lia.
Qed.

(** the strongest constraint other than the first is kept *)
Lemma peak_nonneg w h v : peak w h v -> Forall (fun x => 0 <= x) h -> 0 <= v.
Proof.
  intros [o [l [E [_ [I _]]]]] HF. rewrite Forall_forall in HF. apply HF. subst. apply in_or_app; auto.
Qed.
Lemma kept_strongest {A} (limit st : Qc) (peaks : list Qc) (cs : list A) (hs : list (list Qc)) cs' al' k :
  combine cs' al' = map snd (filter (fun q => Qcleb limit (fst q)) (combine peaks (combine cs hs))) ->
  forall c h, nth_error peaks k = Some st -> nth_error cs k = Some c -> nth_error hs k = Some h -> limit <= st -> In (c, h) (combine cs' al').
Proof.
  intros E c h H1 H2 H3 HL. rewrite E. apply in_map_iff. exists (st, (c, h)). split; auto. apply filter_In. cbn [fst]. split.
  - clear E. revert peaks cs hs H1 H2 H3. induction k as [|k IH]; intros [|p peaks] [|c0 cs] [|h0 hs] H1 H2 H3; try discriminate.
    + cbn in *. left. congruence.
    + cbn [combine]. right. apply IH; auto.
  - destruct (Qcleb_spec limit st) as [H|H]; auto. exfalso. apply (Qclt_not_le _ _ H HL).
Qed.
Lemma os_prune_keeps {A} prm (cs : list A) alphas a : o_window prm <> O -> S (length alphas) = length cs -> length a = length cs ->
  alphas <> [] -> 0 <= o_threshold prm -> o_threshold prm <= 1 -> Forall (Forall (fun x => 0 <= x)) alphas -> Forall (fun x => 0 <= x) a ->
  exists cs' al' k c h, os_prune prm cs alphas a = Ok (cs', al') /\ cs' <> [] /\
    (0 < k)%nat /\ nth_error cs k = Some c /\ nth_error (extended alphas a) k = Some h /\ In (c, h) (combine cs' al') /\
    exists v, peak (o_window prm) h v /\
      forall j hj vj, (0 < j)%nat -> nth_error (extended alphas a) j = Some hj -> peak (o_window prm) hj vj -> vj <= v.
Proof.
  intros HW L La HA T0 T1 N1 N2. destruct (os_prune_exact prm cs alphas a HW L La HA) as [cs' [al' [peaks [st [E [L' [PK [[I M] C]]]]]]]].
  set (hs := extended alphas a) in *. assert (Lh : length hs = length cs) by (unfold hs; rewrite extended_length; lia).
  assert (Lp : length hs = length peaks) by (eapply Forall2_len; eauto).
  destruct peaks as [|p0 peaks]; [destruct I|]. cbn [tl] in I. apply In_nth_error in I. destruct I as [j Ej].
  assert (Lj : (S j < length cs)%nat). { assert (H := proj1 (nth_error_Some peaks j) ltac:(congruence)). cbn [length] in Lp. lia. }
  destruct (nth_error cs (S j)) as [c|] eqn:Ec; [|apply nth_error_None in Ec; lia].
  destruct (nth_error hs (S j)) as [h|] eqn:Eh; [|apply nth_error_None in Eh; lia].
  assert (NN : Forall (Forall (fun x => 0 <= x)) hs).
  { unfold hs, extended. assert (F2 : Forall (Forall (fun x : Qc => 0 <= x)) (alphas ++ [[]])).
    { apply Forall_app. split; auto. }
    revert F2 N2. generalize (alphas ++ [[]]). clear. intros l. revert a. induction l as [|h l IH]; intros [|v a] F G; cbn [zipw]; constructor.
    - apply Forall_cons_iff in F. apply Forall_cons_iff in G. apply Forall_app. split. apply F. constructor; auto. apply G.
    - apply Forall_cons_iff in F. apply Forall_cons_iff in G. apply IH; [apply F|apply G]. }
  assert (FN : forall i x y, nth_error hs i = Some x -> nth_error (p0 :: peaks) i = Some y -> peak (o_window prm) x y).
  { clear - PK. induction PK; intros [|i] u v A1 A2; try discriminate; cbn in *; [congruence|eauto]. }
  assert (P : peak (o_window prm) h st) by (eapply (FN (S j)); eauto).
  assert (S0 : 0 <= st). { eapply peak_nonneg; eauto. rewrite Forall_forall in NN. apply NN. eapply nth_error_In; eauto. }
  assert (LM : o_threshold prm * st <= st).
  { apply Qcle_trans with (1 * st); [apply Qcmult_le_compat_r; auto|apply Qceq_le; ring]. }
  assert (IN := kept_strongest _ st _ cs hs cs' al' (S j) C c h Ej Ec Eh LM).
  exists cs', al', (S j), c, h. split; auto. split. { intro; subst; destruct IN. } split; [lia|]. split; auto. split; auto. split; auto.
  exists st. split; auto. intros i hi vi Hi Ei Pi. destruct i as [|i]; [lia|].
  destruct (nth_error peaks i) as [w|] eqn:Ew.
  - apply Qcle_trans with w. 2:{ apply M. cbn [tl]. eapply nth_error_In; eauto. }
    assert (Pw := FN (S i) hi w Ei Ew). clear - Pi Pw.
    destruct Pi as [o1 [l1 [E1 [L1 [I1 M1]]]]]. destruct Pw as [o2 [l2 [E2 [L2 [I2 M2]]]]].
    assert (l1 = l2).
    { rewrite E1 in E2. assert (LL : length l1 = length l2) by congruence. clear - E2 LL.
      assert (length o1 = length o2). { apply (f_equal (@length _)) in E2. rewrite !app_length in E2. lia. }
      revert o2 E2 H. induction o1 as [|x o1 IH]; intros [|y o2] E H; try discriminate; auto. cbn in E. injection E as _ E. eauto. }
    subst. apply M2. auto.
  - exfalso. apply nth_error_None in Ew. assert (Q := proj1 (nth_error_Some hs (S i)) ltac:(congruence)). cbn [length] in Lp. lia.
Qed.

From Verif Require Import Model.Inference Spec.Energy Spec.SolverSpec Spec.InferenceSpec
  Proofs.Arrays Proofs.EnergyProofs Proofs.LossProofs Proofs.MaxProdProofs Proofs.LPProofs2.

(** ** argmax per row *)
Lemma argmax_rows_first m y : argmax_rows m = Ok y ->
  length y = mrows m /\
  forall i, (i < mrows m)%nat -> (lab y i < mcols m)%nat /\
    (forall s, (s < mcols m)%nat -> mget m i s <= mget m i (lab y i)) /\
    (forall s, (s < lab y i)%nat -> mget m i s < mget m i (lab y i)).
Proof.
  intro E. unfold argmax_rows in E. assert (HL := mapM_length _ _ _ E). rewrite seq_length in HL. split; [exact HL|].
  intros i Hi. assert (Q := mapM_nth _ _ _ i O O E). rewrite seq_length in Q. specialize (Q Hi).
  rewrite seq_nth in Q by exact Hi. change (nth i y O) with (lab y i) in Q. simpl plus in Q.
  destruct (np_argmax_spec _ _ Q) as [H1 [H2 H3]]. rewrite tab1_length in *. split; [exact H1|]. split.
  - intros s Hs. specialize (H2 s Hs). rewrite !get1_tab1 in H2 by assumption. exact H2.
  - intros s Hs. specialize (H3 s Hs). rewrite !get1_tab1 in H3 by lia. exact H3.
Qed.
Lemma argmax_rows_none m : (0 < mrows m)%nat -> mcols m = O -> argmax_rows m = Err ValueError.
Proof.
  intros Hr Hc. unfold argmax_rows. destruct (mrows m); [lia|]. simpl. rewrite Hc. reflexivity.
Qed.
Lemma argmax_rows_empty m : mrows m = O -> argmax_rows m = Ok [].
Proof. intro H. unfold argmax_rows. rewrite H. reflexivity. Qed.

(** ** inference_unaries *)
Lemma unaries_ok U p edges n k : mrows U = n -> mcols U = k -> (0 < k)%nat -> pw_shape p (length edges) k ->
  exists y, inference_unaries U p edges = Ok y /\ labelling n k y /\
    (forall i s, (i < n)%nat -> (s < k)%nat -> mget U i s <= mget U i (lab y i)) /\
    (forall i s, (i < n)%nat -> (s < lab y i)%nat -> mget U i s < mget U i (lab y i)).
Proof.
  intros Hr Hc Hk Hp. unfold inference_unaries.
  destruct (validate_ok U p edges k Hc) as [pws [E _]]; [destruct p; exact Hp|]. rewrite E. cbn [bind].
  destruct (argmax_rows_ok U n k Hr Hc Hk) as [y [Ey [Hy _]]]. exists y. split; [exact Ey|]. split; [exact Hy|].
  destruct (argmax_rows_first _ _ Ey) as [_ H]. rewrite Hr, Hc in H.
  split; intros i s Hi Hs; apply H; assumption.
Qed.
Lemma unaries_bad_shape U p edges : ~ pw_shape p (length edges) (mcols U) -> pw_ok p ->
  inference_unaries U p edges = Err ValueError.
Proof.
  intros H Hp. unfold inference_unaries, validate_params. destruct p as [m|n0 n1 n2 d].
  - destruct (Nat.eqb_spec (mrows m) (mcols U)), (Nat.eqb_spec (mcols m) (mcols U)); simpl in *; auto. exfalso. auto.
  - destruct Hp as [Hd _].
    destruct (Nat.eqb_spec n0 (length edges)), (Nat.eqb_spec n1 (mcols U)), (Nat.eqb_spec n2 (mcols U)); simpl in *; auto.
    exfalso. apply H. auto.
Qed.
Lemma unaries_exact U p edges n k c : mrows U = n -> mcols U = k -> (0 < k)%nat -> graph_edges n edges -> pw_shape p (length edges) k ->
  (forall e s t, (e < length edges)%nat -> (s < k)%nat -> (t < k)%nat -> pw_table p e s t = c e) ->
  exists y, inference_unaries U p edges = Ok y /\ maximiser n k edges (mget U) (pw_table p) y.
Proof.
  intros Hr Hc Hk Hg Hp HC. destruct (unaries_ok U p edges n k Hr Hc Hk Hp) as [y [E [Hy [Hm _]]]].
  exists y. split; [exact E|]. split; [exact Hy|]. intros y' Hy'. unfold score.
  assert (A : forall z, labelling n k z -> sumn (length edges) (fun e => pw_table p e (lab z (fst (nth e edges (0, 0)%nat)))
     (lab z (snd (nth e edges (0, 0)%nat)))) = sumn (length edges) c).
  { intros z Hz. apply sumn_ext. intros e He. destruct (graph_edges_nth _ _ _ Hg He).
    apply HC; auto; eapply labelling_lt; eauto. }
  rewrite !A by assumption.
  assert (B : sumn n (fun i => mget U i (lab y' i)) <= sumn n (fun i => mget U i (lab y i))).
  { apply sumn_le. intros i Hi. apply Hm; auto. eapply labelling_lt; eauto. }
  qclra.
Qed.
(** how far from optimal unary inference can be: the spread of the pairwise tables *)
Lemma unaries_gap U p edges n k (lo hi : nat -> Qc) : mrows U = n -> mcols U = k -> (0 < k)%nat -> graph_edges n edges -> pw_shape p (length edges) k ->
  (forall e s t, (e < length edges)%nat -> (s < k)%nat -> (t < k)%nat -> lo e <= pw_table p e s t /\ pw_table p e s t <= hi e) ->
  exists y, inference_unaries U p edges = Ok y /\ labelling n k y /\
    forall y', labelling n k y' ->
      score n edges (mget U) (pw_table p) (lab y') <= score n edges (mget U) (pw_table p) (lab y) + sumn (length edges) (fun e => hi e - lo e).
Proof.
  intros Hr Hc Hk Hg Hp HC. destruct (unaries_ok U p edges n k Hr Hc Hk Hp) as [y [E [Hy [Hm _]]]].
  exists y. split; [exact E|]. split; [exact Hy|]. intros y' Hy'. unfold score.
  assert (B : sumn n (fun i => mget U i (lab y' i)) <= sumn n (fun i => mget U i (lab y i))).
  { apply sumn_le. intros i Hi. apply Hm; auto. eapply labelling_lt; eauto. }
  set (T := fun z e => pw_table p e (lab z (fst (nth e edges (0, 0)%nat))) (lab z (snd (nth e edges (0, 0)%nat)))).
  assert (HT : forall z, labelling n k z -> forall e, (e < length edges)%nat -> lo e <= T z e /\ T z e <= hi e).
  { intros z Hz e He. destruct (graph_edges_nth _ _ _ Hg He). apply HC; auto; eapply labelling_lt; eauto. }
  assert (A : sumn (length edges) (T y') <= sumn (length edges) (T y) + sumn (length edges) (fun e => hi e - lo e)).
  { rewrite <- sumn_plus. apply sumn_le. intros e He. destruct (HT y Hy e He). destruct (HT y' Hy' e He).
    set (a := T y e) in *. set (b := T y' e) in *. clearbody a b. qclra. }
  change (sumn n (fun i => mget U i (lab y' i)) + sumn (length edges) (T y') <=
    sumn n (fun i => mget U i (lab y i)) + sumn (length edges) (T y) + sumn (length edges) (fun e => hi e - lo e)).
  qclra.
Qed.

(** ** quantisation *)
Lemma trunc_close q : ofZ (trunc q) - 1 < q /\ q < ofZ (trunc q) + 1.
Proof.
  unfold trunc. destruct q as [[a d] Hq]. simpl Qnum. simpl Qden.
  set (z := Z.quot a (Z.pos d)).
  assert (R := Z.quot_rem' a (Z.pos d)). fold z in R.
  assert (B : (Z.abs (Z.rem a (Z.pos d)) < Z.pos d)%Z).
  { assert (Q := Z.rem_bound_abs a (Z.pos d)). specialize (Q ltac:(lia)). rewrite (Z.abs_eq (Z.pos d)) in Q by lia. exact Q. }
  unfold Qclt. split.
  - rewrite this_minus, this_ofZ. change (this {| this := (a # d)%Q; canon := Hq |}) with (a # d)%Q.
    unfold Qlt, inject_Z, Qminus, Qplus. cbn [Qnum Qden this Q2Qc Qopp].
    change (Qred 1) with 1%Q. cbn [Qnum Qden]. clearbody z. nia.
  - rewrite this_plus, this_ofZ. change (this {| this := (a # d)%Q; canon := Hq |}) with (a # d)%Q.
    unfold Qlt, inject_Z, Qplus. cbn [Qnum Qden this Q2Qc].
    change (Qred 1) with 1%Q. cbn [Qnum Qden]. clearbody z. nia.
Qed.
Lemma trunc_range q : ofZ (- 2147483649) < q -> q < ofZ 2147483648 -> (int32_min <= trunc q <= int32_max)%Z.
Proof.
  unfold trunc, int32_min, int32_max. destruct q as [[a d] Hq]. simpl Qnum. simpl Qden. unfold Qclt. rewrite !this_ofZ.
  unfold Qlt, inject_Z. cbn [this Qnum Qden]. intros H1 H2.
  assert (R := Z.quot_rem' a (Z.pos d)). set (z := Z.quot a (Z.pos d)) in *.
  destruct (Z.le_gt_cases 0 a) as [Pa|Na].
  - assert (B := Z.rem_bound_pos a (Z.pos d) Pa ltac:(lia)).
    assert (L1 : (Z.pos d * z < Z.pos d * 2147483648)%Z) by lia. apply Z.mul_lt_mono_pos_l in L1; [|lia].
    assert (L2 : (Z.pos d * (-1) < Z.pos d * z)%Z) by lia. apply Z.mul_lt_mono_pos_l in L2; [|lia]. lia.
  - assert (B := Z.rem_bound_pos_neg a (Z.pos d)). specialize (B ltac:(lia) ltac:(lia)).
    assert (L1 : (Z.pos d * z < Z.pos d * 1)%Z) by lia. apply Z.mul_lt_mono_pos_l in L1; [|lia].
    assert (L2 : (Z.pos d * (- 2147483649) < Z.pos d * z)%Z) by lia. apply Z.mul_lt_mono_pos_l in L2; [|lia]. lia.
Qed.
Lemma to_int32_close f q : fits_int32 q ->
  ofZ (to_int32 f (- ofZ 1000 * q)) - 1 < - ofZ 1000 * q /\ - ofZ 1000 * q < ofZ (to_int32 f (- ofZ 1000 * q)) + 1.
Proof.
  intros [H3 H2]. unfold to_int32.
  assert (R : (int32_min <= trunc (- ofZ 1000 * q) <= int32_max)%Z).
  { apply trunc_range.
    - replace (- ofZ 1000 * q) with (- (ofZ 1000 * q)) by ring. rewrite (ofZ_opp 2147483649 : ofZ (- 2147483649)%Z = - ofZ 2147483649).
      set (a := ofZ 1000 * q) in *. set (b := ofZ 2147483649) in *. clearbody a b. qclra.
    - replace (- ofZ 1000 * q) with (- (ofZ 1000 * q)) by ring. rewrite (ofZ_opp 2147483648 : ofZ (- 2147483648)%Z = - ofZ 2147483648) in H3.
      set (a := ofZ 1000 * q) in *. set (b := ofZ 2147483648) in *. clearbody a b. qclra. }
  replace ((int32_min <=? trunc (- ofZ 1000 * q)) && (trunc (- ofZ 1000 * q) <=? int32_max))%Z with true by lia.
  apply trunc_close.
Qed.
Lemma zget_quantise f a i j : (i < length a)%nat -> (j < length (nth i a []))%nat ->
  zget (quantise f a) i j = to_int32 f (- ofZ 1000 * get2 a i j).
Proof.
  intros Hi Hj. unfold zget, quantise. rewrite (nth_map_in _ _ _ []) by exact Hi.
  rewrite (nth_map_in _ _ _ 0) by exact Hj. reflexivity.
Qed.

Lemma qpbo_near_optimal b solve U p edges n k :
  b_qpbo b = Some solve -> mat_ok U -> mrows U = n -> mcols U = k -> graph_edges n edges -> pw_ok p -> pw_shape p (length edges) k ->
  (forall i s, (i < n)%nat -> (s < k)%nat -> fits_int32 (mget U i s)) ->
  (forall e s t, (e < length edges)%nat -> (s < k)%nat -> (t < k)%nat -> fits_int32 (pw_table p e s t)) ->
  exists Ui Pi, inference_qpbo b U p edges = solve edges Ui Pi /\
    (forall i s, (i < n)%nat -> (s < k)%nat -> zget Ui i s = trunc (- ofZ 1000 * mget U i s)) /\
    forall y, int_minimiser n k edges Ui Pi y ->
      forall y', labelling n k y' ->
        score n edges (mget U) (pw_table p) (lab y') <=
        score n edges (mget U) (pw_table p) (lab y) + ofN (n + length edges) / ofZ 500.
Proof.
  intros Hb HU Hr Hc Hg Hpo Hp RU RP. unfold inference_qpbo. rewrite Hb. cbn [imported bind].
  destruct (validate_ok U p edges k Hc) as [pws [E [HL HT]]]; [destruct p; exact Hp|]. rewrite E. cbn [bind snd].
  set (f := b_int32 b). exists (quantise f (mdat U)), (map (quantise f) pws). split; [reflexivity|].
  assert (HD : Forall (fun a => mat_ok (Mat k k a)) pws).
  { apply Forall_forall. intros a Ha. apply (In_nth _ _ []) in Ha. destruct Ha as [e [He <-]]. rewrite HL in He.
    rewrite HT by exact He. destruct p as [m|n0 n1 n2 d].
    - destruct Hp as [H1 H2]. simpl in Hpo. destruct m as [r c dd]. simpl in *. subst. exact Hpo.
    - destruct Hp as [H1 [H2 [H3 H4]]]. destruct Hpo as [_ Hd]. subst. rewrite Forall_forall in Hd. apply Hd, nth_In. lia. }
  assert (ZU : forall i s, (i < n)%nat -> (s < k)%nat -> zget (quantise f (mdat U)) i s = to_int32 f (- ofZ 1000 * mget U i s)).
  { intros i s Hi Hs. destruct HU as [U1 U2]. apply zget_quantise; [lia|]. rewrite Forall_forall in U2.
    rewrite (U2 (nth i (mdat U) [])); [lia|]. apply nth_In. lia. }
  assert (ZP : forall e s t, (e < length edges)%nat -> (s < k)%nat -> (t < k)%nat ->
     zget (nth e (map (quantise f) pws) []) s t = to_int32 f (- ofZ 1000 * pw_table p e s t)).
  { intros e s t He Hs Ht. rewrite (nth_map_in _ _ _ []) by lia.
    assert (D : mat_ok (Mat k k (nth e pws []))) by (rewrite Forall_forall in HD; apply HD, nth_In; lia).
    destruct D as [D1 D2]. simpl in D1, D2. rewrite zget_quantise; [|lia|].
    - rewrite HT by exact He. destruct p; reflexivity.
    - rewrite Forall_forall in D2. rewrite (D2 (nth s (nth e pws []) [])); [lia|]. apply nth_In. lia. }
  split.
  { intros i s Hi Hs. rewrite ZU by assumption. unfold to_int32.
    destruct (RU i s Hi Hs) as [F3 F2].
    assert (R : (int32_min <= trunc (- ofZ 1000 * mget U i s) <= int32_max)%Z).
    { apply trunc_range.
      - replace (- ofZ 1000 * mget U i s) with (- (ofZ 1000 * mget U i s)) by ring. rewrite (ofZ_opp 2147483649 : ofZ (- 2147483649)%Z = - ofZ 2147483649).
        set (a := ofZ 1000 * mget U i s) in *. set (c := ofZ 2147483649) in *. clearbody a c. qclra.
      - replace (- ofZ 1000 * mget U i s) with (- (ofZ 1000 * mget U i s)) by ring. rewrite (ofZ_opp 2147483648 : ofZ (- 2147483648)%Z = - ofZ 2147483648) in F3.
        set (a := ofZ 1000 * mget U i s) in *. set (c := ofZ 2147483648) in *. clearbody a c. qclra. }
    replace ((int32_min <=? _) && _)%Z with true by lia. reflexivity. }
  intros y [Hy Hmin] y' Hy'. specialize (Hmin y' Hy').
  (* each labelling's integer energy is within n + E of -1000 times its score *)
  assert (A : forall z, labelling n k z ->
     int_energy n edges (quantise f (mdat U)) (map (quantise f) pws) z <=
       - ofZ 1000 * score n edges (mget U) (pw_table p) (lab z) + ofN (n + length edges) /\
     - ofZ 1000 * score n edges (mget U) (pw_table p) (lab z) - ofN (n + length edges) <=
     int_energy n edges (quantise f (mdat U)) (map (quantise f) pws) z).
  { intros z Hz. unfold int_energy, score.
    set (A1 := sumn n (fun i => ofZ (zget (quantise f (mdat U)) i (lab z i)))).
    set (A2 := sumn (length edges) _).
    assert (B1 : - ofZ 1000 * sumn n (fun i => mget U i (lab z i)) - ofN n <= A1 /\ A1 <= - ofZ 1000 * sumn n (fun i => mget U i (lab z i)) + ofN n).
    { replace (ofN n) with (sumn n (fun _ => 1)) by (rewrite sumn_const; ring).
      rewrite <- sumn_mult_l, <- sumn_minus, <- sumn_plus. split; apply sumn_le; intros i Hi.
      - assert (Hs := labelling_lt _ _ _ _ Hz Hi). rewrite ZU by assumption. destruct (to_int32_close f (mget U i (lab z i)) (RU _ _ Hi Hs)) as [C1 C2].
        set (u := - ofZ 1000 * mget U i (lab z i)) in *. set (v := ofZ (to_int32 f u)) in *. clearbody u v. qclra.
      - assert (Hs := labelling_lt _ _ _ _ Hz Hi). rewrite ZU by assumption. destruct (to_int32_close f (mget U i (lab z i)) (RU _ _ Hi Hs)) as [C1 C2].
        set (u := - ofZ 1000 * mget U i (lab z i)) in *. set (v := ofZ (to_int32 f u)) in *. clearbody u v. qclra. }
    set (P2 := sumn (length edges) (fun e => pw_table p e (lab z (fst (nth e edges (0, 0)%nat))) (lab z (snd (nth e edges (0, 0)%nat))))).
    assert (B2 : - ofZ 1000 * P2 - ofN (length edges) <= A2 /\ A2 <= - ofZ 1000 * P2 + ofN (length edges)).
    { replace (ofN (length edges)) with (sumn (length edges) (fun _ => 1)) by (rewrite sumn_const; ring).
      unfold P2, A2. rewrite <- sumn_mult_l, <- sumn_minus, <- sumn_plus.
      split; apply sumn_le; intros e He; destruct (graph_edges_nth _ _ _ Hg He) as [Ha Hb2];
        assert (S1 := labelling_lt _ _ _ _ Hz Ha); assert (S2 := labelling_lt _ _ _ _ Hz Hb2);
        rewrite ZP by assumption;
        destruct (to_int32_close f _ (RP _ _ _ He S1 S2)) as [C1 C2];
        set (u := - ofZ 1000 * pw_table p e (lab z (fst (nth e edges (0, 0)%nat))) (lab z (snd (nth e edges (0, 0)%nat)))) in *;
        set (v := ofZ (to_int32 f u)) in *; clearbody u v; qclra. }
    rewrite ofN_plus. set (S1 := sumn n (fun i => mget U i (lab z i))) in *. destruct B1, B2.
    replace (- ofZ 1000 * (S1 + P2)) with (- ofZ 1000 * S1 + - ofZ 1000 * P2) by ring.
    set (a := - ofZ 1000 * S1) in *. set (c := - ofZ 1000 * P2) in *. clearbody A1 A2 a c. split; qclra. }
  destruct (A y Hy) as [_ A1]. destruct (A y' Hy') as [A2 _].
  set (s := score n edges (mget U) (pw_table p) (lab y)) in *. set (s' := score n edges (mget U) (pw_table p) (lab y')) in *.
  set (N := ofN (n + length edges)) in *.
  assert (K : ofZ 1000 * s' <= ofZ 1000 * s + (N + N)).
  { replace (ofZ 1000 * s') with (- (- ofZ 1000 * s')) by ring. replace (ofZ 1000 * s) with (- (- ofZ 1000 * s)) by ring.
    set (u := - ofZ 1000 * s) in *. set (v := - ofZ 1000 * s') in *.
    set (e1 := int_energy n edges _ _ y) in *. set (e2 := int_energy n edges _ _ y') in *. clearbody u v e1 e2 N. qclra. }
  clearbody s s' N. unfold Qcdiv. replace (/ ofZ 500) with (Q2Qc (1 # 500)) by (apply Qc_is_canon; reflexivity).
  set (c := Q2Qc (1 # 1000)). assert (C1 : c * ofZ 1000 = 1) by (apply Qc_is_canon; reflexivity).
  replace (Q2Qc (1 # 500)) with (c + c) by (apply Qc_is_canon; reflexivity).
  assert (K2 : 0 <= c * ((ofZ 1000 * s + (N + N)) - ofZ 1000 * s')).
  { apply Qcmult_nonneg; [vm_compute; discriminate|]. set (u := ofZ 1000 * s) in *. set (v := ofZ 1000 * s') in *. clearbody u v. qclra. }
  replace (c * ((ofZ 1000 * s + (N + N)) - ofZ 1000 * s')) with ((c * ofZ 1000) * (s - s') + N * (c + c)) in K2 by ring.
  rewrite C1, Qcmult_1_l in K2. set (u := N * (c + c)) in *. clearbody u. qclra.
Qed.

(** outside the int32 range nothing can be said *)
Lemma increasing_unbounded (g : nat -> Z) m :
  (exists j, (j < m)%nat /\ (g (S j) <= g j)%Z) \/ (g O + Z.of_nat m <= g m)%Z.
Proof.
  induction m as [|m [[j [Hj H]]|H]].
  - right. lia.
  - left. exists j. split; [lia|exact H].
  - destruct (Z.le_gt_cases (g (S m)) (g m)) as [L|L].
    + left. exists m. split; [lia|exact L].
    + right. lia.
Qed.
Lemma trunc_ofZ z : trunc (ofZ z) = z.
Proof.
  unfold trunc, ofZ. cbn [this Q2Qc].
  assert (E : Qred (inject_Z z) = inject_Z z).
  { unfold inject_Z, Qred. assert (G := Z.ggcd_gcd z 1). assert (C := Z.ggcd_correct_divisors z 1).
    destruct (Z.ggcd z 1) as [g [a c]]. simpl in G. rewrite Z.gcd_1_r in G. subst g. destruct C as [-> C].
    replace c with 1%Z by lia. destruct a; reflexivity. }
  rewrite E. apply Z.quot_1_r.
Qed.
Lemma qpbo_overflow (b : backends) solve (K : Z) :
  b_qpbo b = Some solve -> (forall z, (int32_min <= b_int32 b z <= int32_max)%Z) -> (0 < K)%Z ->
  exists U Ui y y', mat_ok U /\ mrows U = 1%nat /\ mcols U = 2%nat /\
    inference_qpbo b U (Pw2 (mat_zeros 2 2)) [] = solve [] Ui [] /\
    int_minimiser 1 2 [] Ui [] y /\ labelling 1 2 y' /\
    score 1 [] (mget U) (fun _ _ _ => 0) (lab y) + ofZ K < score 1 [] (mget U) (fun _ _ _ => 0) (lab y').
Proof.
  intros Hb Hr HK. set (f := b_int32 b) in *.
  (* scaled energies 1000 * (10^7 + j (K+1)), all out of range and increasing *)
  set (u := fun j : nat => (- (10000000 + Z.of_nat j * (K + 1)))%Z).
  set (g := fun j => to_int32 f (- ofZ 1000 * ofZ (u j))).
  assert (Eg : forall j, g j = f (1000 * (10000000 + Z.of_nat j * (K + 1)))%Z).
  { intro j. unfold g, to_int32. replace (- ofZ 1000 * ofZ (u j)) with (ofZ (1000 * (10000000 + Z.of_nat j * (K + 1)))%Z).
    2:{ rewrite ofZ_mult. unfold u. rewrite ofZ_opp. ring. }
    rewrite trunc_ofZ. unfold int32_max, int32_min.
    replace ((_ <=? _) && _)%Z with false; [reflexivity|]. symmetry. apply andb_false_iff. right. apply Z.leb_gt. nia. }
  assert (R : forall j, (int32_min <= g j <= int32_max)%Z) by (intro j; rewrite Eg; apply Hr).
  destruct (increasing_unbounded g (Z.to_nat (int32_max - int32_min + 1))) as [[j [_ Hj]]|H].
  2:{ assert (R0 := R O). assert (R1 := R (Z.to_nat (int32_max - int32_min + 1))). rewrite Z2Nat.id in H by (vm_compute; discriminate).
      unfold int32_min, int32_max in *. exfalso. lia. }
  exists (Mat 1 2 [[ofZ (u (S j)); ofZ (u j)]]), [[g (S j); g j]], [0%nat], [1%nat].
  split; [apply mat_okb_ok; reflexivity|]. split; [reflexivity|]. split; [reflexivity|]. split; [|split; [|split]].
  - unfold inference_qpbo. rewrite Hb. reflexivity.
  - split; [split; [reflexivity|repeat constructor]|]. intros y' [L F]. destruct y' as [|s [|]]; try discriminate L.
    inversion F; subst. unfold int_energy, score. simpl. unfold zget, lab. simpl nth.
    apply Qcplus_le_compat; [|apply Qcle_refl]. apply Qcplus_le_compat; [apply Qcle_refl|].
    apply ofZ_le. destruct s as [|[|s]]; simpl nth; lia.
  - split; [reflexivity|repeat constructor].
  - unfold score. cbn [length]. rewrite !sumn_S, !sumn_O. unfold mget, lab, get2. cbn [nth mdat].
    assert (ofZ (u (S j)) + ofZ K < ofZ (u j)).
    { rewrite <- ofZ_plus. apply ofZ_lt. unfold u. nia. }
    set (a := ofZ (u (S j))) in *. set (c := ofZ (u j)) in *. set (d := ofZ K) in *. clearbody a c d. qclra.
Qed.

(** ** decoding several node types *)
Lemma list_sum_firstn_S {A} (f : A -> nat) a l j : before f (a :: l) (S j) = (f a + before f l j)%nat.
Proof. reflexivity. Qed.
Lemma decode_from_spec ums : forall cum y, decode_from cum ums = Ok y ->
  length y = list_sum (map mrows ums) /\
  forall j i, (j < length ums)%nat -> (i < mrows (nth j ums (Mat 0 0 [])))%nat ->
    let m := nth j ums (Mat 0 0 []) in
    exists s, (s < mcols m)%nat /\ nth (before mrows ums j + i) y O = (cum + before mcols ums j + s)%nat /\
      (forall t, (t < mcols m)%nat -> mget m i t <= mget m i s) /\ (forall t, (t < s)%nat -> mget m i t < mget m i s).
Proof.
  induction ums as [|m r IH]; intros cum y E; simpl in E.
  - injection E as <-. split; [reflexivity|]. simpl. intros; lia.
  - apply bind_ok in E. destruct E as [y1 [E1 E]]. apply bind_ok in E. destruct E as [y2 [E2 E]]. injection E as <-.
    destruct (argmax_rows_first _ _ E1) as [L1 H1]. destruct (IH _ _ E2) as [L2 H2].
    split; [rewrite app_length, map_length, L1, L2; reflexivity|].
    intros [|j] i Hj Hi.
    + cbn [nth] in Hi |- *. change (before mrows (m :: r) 0) with O. change (before mcols (m :: r) 0) with O. rewrite Nat.add_0_l.
      destruct (H1 i Hi) as [A [B C]]. exists (lab y1 i). split; [exact A|].
      split; [|split; assumption]. rewrite app_nth1 by (rewrite map_length; lia).
      rewrite (nth_map_in _ _ _ O) by lia. unfold lab. lia.
    + cbn [nth] in Hi |- *. destruct (H2 j i ltac:(simpl in Hj; lia) Hi) as [s [A [B C]]]. exists s. split; [exact A|].
      split; [|exact C]. rewrite !list_sum_firstn_S. rewrite app_nth2 by (rewrite map_length; lia).
      rewrite map_length, L1. replace (mrows m + before mrows r j + i - mrows m)%nat with (before mrows r j + i)%nat by lia.
      rewrite B. lia.
Qed.
Lemma decode_from_ok ums : (forall m, In m ums -> (0 < mrows m)%nat -> (0 < mcols m)%nat) -> forall cum, exists y, decode_from cum ums = Ok y.
Proof.
  induction ums as [|m r IH]; intros H cum; simpl; eauto.
  destruct (IH ltac:(intros; apply H; simpl; auto) (cum + mcols m)%nat) as [ys ->].
  destruct (Nat.eq_dec (mrows m) 0) as [Z|Z].
  - rewrite argmax_rows_empty by exact Z. simpl. eauto.
  - destruct (argmax_rows_ok m (mrows m) (mcols m) eq_refl eq_refl) as [y [-> _]]; [apply H; simpl; auto; lia|]. simpl. eauto.
Qed.

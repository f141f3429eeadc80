From Verif Require Import Model.QP Spec.QPSpec Spec.OneSlackSpec Proofs.Arrays Proofs.LossProofs Proofs.LearnerProofs Proofs.QPProofs Proofs.QPProofs2 Proofs.QPProofs3 Proofs.NSlackProofs.

Definition oslack_of C neg n (cs : list ocon) reg := one_slack_problem C neg n (map fst cs) (map snd cs) reg.
Definition dual1_ok (d : nat) (Cn : Qc) (neg : option (list nat)) (cs : list ocon) (a : list Qc) : Prop :=
  length a = length cs /\ (forall c, (c < length cs)%nat -> 0 <= get1 a c) /\ lsum a = Cn /\
  (forall idx, neg = Some idx -> forall i, In i idx -> get1 (comb d a (map fst cs)) i <= 0).
Definition dual1_value (d : nat) (cs : list ocon) (a : list Qc) : Qc :=
  dot (map snd cs) a - normsq (comb d a (map fst cs)) / (1 + 1).

Lemma ocons_len d (cs : list ocon) : Forall (fun c => length (fst c) = d) cs -> Forall (fun u => length u = d) (map fst cs).
Proof. intro HF. apply Forall_forall. intros u Hu. apply in_map_iff in Hu. destruct Hu as [c [<- Hc]]. rewrite Forall_forall in HF. auto. Qed.
Lemma oslack_nonempty C neg n cs reg p : oslack_of C neg n cs reg = Ok p -> cs <> [].
Proof. intros H E. subst. discriminate. Qed.

Lemma map_fst_nonempty (cs : list ocon) : cs <> [] -> map fst cs <> [].
Proof. destruct cs; [|discriminate]. intros H _. apply H. reflexivity. Qed.
Lemma oslack_feasible d C neg n cs reg p a : Forall (fun c => length (fst c) = d) cs ->
  oslack_of C neg n cs reg = Ok p ->
  (qp_feasible p a <-> dual1_ok d (C * ofN n) neg cs a) /\
  (length a = length cs -> qp_value p a = reg * normsq a / (1 + 1) - dual1_value d cs a).
Proof.
  intros HF HP. assert (HN := oslack_nonempty _ _ _ _ _ _ HP). apply ocons_len in HF.
  unfold oslack_of, one_slack_problem in HP. rewrite (vstack_ok d) in HP; auto. 2:{ apply map_fst_nonempty; auto. }
  cbn [bind mrows] in HP. apply bind_ok in HP. destruct HP as [N [EN HP]]. injection HP as <-.
  destruct (neg_rows_inv _ _ _ _ HF EN) as [CN [LN RN]]. set (m := length cs).
  assert (Lm : length (map fst cs) = m) by apply map_length.
  split.
  - unfold qp_feasible, dual1_ok. cbn [qp_q qp_G qp_h qp_A qp_b mrows mdat mat_stack minus_identity mtab].
    rewrite vscale_length, map_length, Lm. fold m.
    assert (R1 : forall r, (r < m)%nat -> nth r (tab2 m m (fun i j => if (i =? j)%nat then - (1) else 0) ++ mdat N) [] = tab1 m (fun j => if (r =? j)%nat then - (1) else 0)).
    { intros r Hr. rewrite app_nth1 by (rewrite tab2_length; lia). apply nth_tab2; auto. }
    assert (R3 : forall i, nth (m + i) (tab2 m m (fun i j => if (i =? j)%nat then - (1) else 0) ++ mdat N) [] = nth i (mdat N) []).
    { intros i. rewrite app_nth2 by (rewrite tab2_length; lia). rewrite tab2_length. f_equal. lia. }
    assert (H1 : forall r, get1 (vzero m ++ vzero (mrows N)) r = 0).
    { intros r. unfold get1, vzero. rewrite <- repeat_app. apply get1_vzero. }
    assert (SA : length a = m -> dot (tab1 m (fun _ => 1)) a = lsum a).
    { intro La. rewrite dot_get by (rewrite tab1_length; auto). rewrite tab1_length, lsum_get, La. apply sumn_ext.
      intros c Hc. rewrite get1_tab1 by auto. ring. }
    split.
    + intros [La [HG HA]]. split; auto. split; [|split].
      * intros c Hc. specialize (HG c ltac:(lia)). rewrite R1, H1, dot_unit in HG by auto. qclra.
      * specialize (HA O ltac:(lia)). rewrite nth_tab2, SA in HA by (auto; lia). exact HA.
      * intros idx -> i Hi. destruct RN as [RM RN]. apply (In_nth _ _ O) in Hi. destruct Hi as [r [Hr Er]]. subst i.
        destruct (RN r Hr) as [_ RN']. rewrite <- (RN' a) by congruence. specialize (HG (m + r)%nat ltac:(lia)).
        rewrite R3, H1 in HG. exact HG.
    + intros [La [H0 [HB HNeg]]]. split; auto. split.
      * intros r Hr. destruct (Nat.lt_ge_cases r m) as [A|A].
        -- rewrite R1, H1, dot_unit by auto. specialize (H0 r A). qclra.
        -- replace r with (m + (r - m))%nat by lia. rewrite R3, H1. destruct neg as [idx|]; [|exfalso; lia].
           destruct RN as [RM RN]. destruct (RN (r - m)%nat ltac:(lia)) as [_ RN']. rewrite (RN' a) by congruence.
           apply (HNeg idx eq_refl). apply nth_In. lia.
      * intros r Hr. replace r with O by lia. rewrite nth_tab2, SA by (auto; lia). exact HB.
  - intro Ha. rewrite qp_obj by (auto; congruence). unfold dual1_value.
    set (x := normsq (comb d a (map fst cs))). set (y := dot (map snd cs) a). field. discriminate.
Qed.

Lemma violation_nth w (cs : list ocon) c : (c < length cs)%nat ->
  violation w (nth c (map fst cs) [], get1 (map snd cs) c) = violation w (nth c cs ([], 0)).
Proof.
  intro H. unfold get1. rewrite (nth_map_in fst _ c ([], 0)), (nth_map_in snd _ c ([], 0)) by auto. destruct (nth c cs ([], 0)); reflexivity.
Qed.
Lemma weak1 d Cn neg cs a w' xi : Forall (fun c => length (fst c) = d) cs -> dual1_ok d Cn neg cs a -> length w' = d ->
  (forall c, In c cs -> violation w' c <= xi) -> dual1_value d cs a <= Cn * xi + normsq w' / (1 + 1).
Proof.
  intros HF [La [H0 [HS _]]] Hw HX. apply ocons_len in HF.
  assert (S1 : sumn (length cs) (fun c => get1 a c * violation w' (nth c cs ([], 0))) <= Cn * xi).
  { rewrite <- HS, lsum_get, La, (Qcmult_comm _ xi), <- sumn_mult_l. apply sumn_le. intros c Hc.
    rewrite (Qcmult_comm (get1 a c)). apply Qcmult_le_compat_r; auto. apply HX, nth_In; auto. }
  assert (VS := violation_sum d w' a (map fst cs) (map snd cs) HF). rewrite !map_length in VS. specialize (VS La eq_refl Hw).
  rewrite (sumn_ext _ _ (fun c => get1 a c * violation w' (nth c cs ([], 0)))) in VS.
  2:{ intros c Hc. rewrite violation_nth by auto. reflexivity. }
  rewrite VS in S1. assert (S2 := half_am w' (comb d a (map fst cs)) ltac:(rewrite comb_length; auto)). unfold dual1_value. qclra.
Qed.

Lemma oneslack_weak d C neg n cs reg p a : 0 <= reg -> Forall (fun c => length (fst c) = d) cs ->
  one_slack_problem C neg n (map fst cs) (map snd cs) reg = Ok p -> qp_feasible p a ->
  exists w, weights a (map fst cs) = Ok w /\ length w = d /\
    (forall idx, neg = Some idx -> forall i, In i idx -> get1 w i <= 0) /\
    forall w' xi, length w' = d -> (forall c, In c cs -> violation w' c <= xi) ->
      - qp_value p a <= C * ofN n * xi + normsq w' / (1 + 1).
Proof.
  intros Hr HF HP HFe. assert (HN := oslack_nonempty _ _ _ _ _ _ HP).
  destruct (oslack_feasible d _ _ _ _ _ _ a HF HP) as [FE VA]. apply FE in HFe. assert (D := HFe). destruct HFe as [F1 [F2 [F3 F4]]].
  exists (comb d a (map fst cs)). split.
  { apply weights_comb; auto. apply map_fst_nonempty; auto. apply ocons_len; auto. rewrite map_length; auto. }
  split; [apply comb_length|]. split; [exact F4|]. intros w' xi Hw' HX.
  assert (WD := weak1 d _ neg cs a w' xi HF D Hw' HX). rewrite VA by auto.
  assert (P := reg_half_nonneg reg a Hr). set (x := reg * normsq a / (1 + 1)) in *. set (y := dual1_value d cs a) in *.
  set (z := C * ofN n * xi) in *. clearbody x y z. qclra.
Qed.

Lemma worst_exists w (cs : list ocon) : cs <> [] -> exists v, worst w cs v.
Proof.
  induction cs as [|c cs IH]; [congruence|]. intros _. destruct cs as [|c2 cs].
  - exists (violation w c). split. exists c; simpl; auto. intros c' [->|[]]. apply Qcle_refl.
  - destruct (IH ltac:(discriminate)) as [v [[b [Hb Eb]] Hv]]. destruct (Qclt_le_dec v (violation w c)) as [L|L].
    + exists (violation w c). split. exists c; simpl; auto. intros c' [->|H]. apply Qcle_refl.
      eapply Qcle_trans; [apply Hv; exact H|apply Qclt_le_weak; exact L].
    + exists v. split. exists b. split; [right; exact Hb|auto]. intros c' [->|H]; auto.
Qed.
Lemma worst_unique w cs v v' : worst w cs v -> worst w cs v' -> v = v'.
Proof. intros [[a [A1 A2]] A3] [[b [B1 B2]] B3]. apply Qcle_antisym; subst; auto. Qed.

(** the dual point with all the mass on constraint k *)
Definition unit_at (n k : nat) (v : Qc) : list Qc := tab1 n (fun c => ind (k =? c)%nat * v).
Lemma unit_sum n k v : (k < n)%nat -> lsum (unit_at n k v) = v.
Proof.
  intro H. unfold unit_at. rewrite lsum_get, tab1_length. rewrite (sumn_ext n _ (fun c => ind (k =? c)%nat * v)).
  apply (sumn_pick' n k (fun _ => v)); auto. intros i Hi. apply get1_tab1; auto.
Qed.
Lemma sum_unit n k v (f : nat -> Qc) : (k < n)%nat -> sumn n (fun c => get1 (unit_at n k v) c * f c) = v * f k.
Proof.
  intro H. rewrite (sumn_ext n _ (fun c => ind (k =? c)%nat * (v * f c))).
  apply (sumn_pick' n k (fun c => v * f c)); auto. intros i Hi. unfold unit_at. rewrite get1_tab1 by auto. ring.
Qed.
Lemma unit_nonneg n k v c : 0 <= v -> (c < n)%nat -> 0 <= get1 (unit_at n k v) c.
Proof. intros H Hc. unfold unit_at. rewrite get1_tab1 by auto. apply Qcmult_nonneg; auto. unfold ind. destruct (_ =? _)%nat; discriminate. Qed.

Lemma strong1 d Cn cs a r v : 0 <= Cn -> 0 <= r -> Forall (fun c => length (fst c) = d) cs ->
  dual1_ok d Cn None cs a -> worst (comb d a (map fst cs)) cs v ->
  (forall b, dual1_ok d Cn None cs b ->
     dual1_value d cs b - r * normsq b / (1 + 1) <= dual1_value d cs a - r * normsq a / (1 + 1)) ->
  Cn * v + normsq (comb d a (map fst cs)) / (1 + 1) <= dual1_value d cs a + r * (Cn * Cn).
Proof.
  intros HC Hr HF Ha [[c0 [I0 V0]] Hmax] Hopt. set (w := comb d a (map fst cs)) in *.
  assert (HF' := ocons_len d cs HF).
  apply (In_nth _ _ ([], 0)) in I0. destruct I0 as [k [Hk Ek]]. set (b := unit_at (length cs) k Cn).
  assert (Lb : length b = length cs) by apply tab1_length.
  assert (Hb : dual1_ok d Cn None cs b).
  { split; auto. split; [intros; apply unit_nonneg; auto|]. split; [|discriminate]. apply unit_sum; auto. }
  assert (La : length a = length cs) by apply Ha.
  assert (FO : dot (map snd cs) b - dot w (comb d b (map fst cs)) <= dot (map snd cs) a - normsq w + r * (dot a b - normsq a)).
  { apply first_order; rewrite ?map_length; auto. intros t T0 T1. apply Hopt.
    assert (Lt : length (vadd a (vscale t (vsub b a))) = length cs) by (rewrite vadd_length; rewrite ?vscale_length, ?vsub_length; congruence).
    assert (G : forall c, get1 (vadd a (vscale t (vsub b a))) c = (1 - t) * get1 a c + t * get1 b c).
    { intro c. rewrite get1_vadd by (rewrite vscale_length, vsub_length; congruence). rewrite get1_vscale, get1_vsub by congruence. ring. }
    destruct Ha as [_ [A1 [A2 _]]]. destruct Hb as [_ [B1 [B2 _]]].
    split; [exact Lt|]. split; [|split; [|discriminate]].
    - intros c Hc. rewrite G. specialize (A1 c Hc). specialize (B1 c Hc).
      assert (P1 : 0 <= (1 - t) * get1 a c) by (apply Qcmult_nonneg; auto; qclra).
      assert (P2 : 0 <= t * get1 b c) by (apply Qcmult_nonneg; auto; qclra).
      set (x := (1 - t) * get1 a c) in *. set (y := t * get1 b c) in *. clearbody x y. qclra.
    - rewrite lsum_get, Lt. rewrite (sumn_ext _ _ (fun c => (1 - t) * get1 a c + t * get1 b c)) by (intros; apply G).
      rewrite sumn_plus, !sumn_mult_l. rewrite <- La at 1. rewrite <- Lb. rewrite <- !lsum_get, A2, B2. ring. }
  assert (EV : dot (map snd cs) b - dot w (comb d b (map fst cs)) = Cn * v).
  { rewrite <- (violation_sum d) by (rewrite ?map_length; auto; apply comb_length). rewrite map_length. unfold b. rewrite sum_unit by auto.
    rewrite violation_nth by auto. rewrite Ek, V0. reflexivity. }
  rewrite EV in FO.
  assert (DB : dot a b - normsq a <= Cn * Cn).
  { assert (P := normsq_nonneg a). assert (D : dot a b <= Cn * Cn).
    { rewrite dot_comm, dot_get by congruence. rewrite Lb. unfold b. rewrite sum_unit by auto.
      rewrite (Qcmult_comm Cn). apply Qcmult_le_compat_r; auto. destruct Ha as [_ [A1 [A2 _]]]. rewrite <- A2, lsum_get, La.
      apply (sumn_term_le (length cs) (get1 a) k); auto. }
    qclra. }
  assert (DB' : r * (dot a b - normsq a) <= r * (Cn * Cn)).
  { rewrite (Qcmult_comm r (dot a b - normsq a)), (Qcmult_comm r (Cn * Cn)). apply Qcmult_le_compat_r; auto. }
  unfold dual1_value. fold w.
  replace (dot (map snd cs) a - normsq w / (1 + 1)) with (dot (map snd cs) a - normsq w + normsq w / (1 + 1)) by (field; discriminate).
  set (h := normsq w / (1 + 1)) in *. set (s := Cn * v) in *. set (x := r * (dot a b - normsq a)) in *.
  set (y := r * (Cn * Cn)) in *. clearbody h s x y. qclra.
Qed.

Lemma Cn_nonneg C n : 0 <= C -> 0 <= C * ofN n.
Proof. intro H. apply Qcmult_nonneg; auto. apply ofN_nonneg. Qed.
Lemma oneslack_strong d C n cs reg p a : 0 <= reg -> 0 <= C -> Forall (fun c => length (fst c) = d) cs ->
  one_slack_problem C None n (map fst cs) (map snd cs) reg = Ok p -> qp_optimal p a ->
  exists w v, weights a (map fst cs) = Ok w /\ worst w cs v /\
    C * ofN n * v + normsq w / (1 + 1) <= - qp_value p a + reg * normsq a / (1 + 1) + reg * (C * ofN n * (C * ofN n)) /\
    forall w' xi, length w' = d -> (forall c, In c cs -> violation w' c <= xi) ->
      C * ofN n * v + normsq w / (1 + 1) <= C * ofN n * xi + normsq w' / (1 + 1) + reg * (C * ofN n * (C * ofN n)).
Proof.
  intros Hr HC HF HP [HFe OPT]. assert (HN := oslack_nonempty _ _ _ _ _ _ HP).
  destruct (oslack_feasible d _ _ _ _ _ _ a HF HP) as [FE VA]. apply FE in HFe.
  destruct (worst_exists (comb d a (map fst cs)) cs HN) as [v Wv]. exists (comb d a (map fst cs)), v. split.
  { apply weights_comb. apply map_fst_nonempty; auto. apply ocons_len; auto. rewrite map_length. apply HFe. }
  split; [exact Wv|]. assert (La : length a = length cs) by apply HFe.
  assert (SD : C * ofN n * v + normsq (comb d a (map fst cs)) / (1 + 1) <= dual1_value d cs a + reg * (C * ofN n * (C * ofN n))).
  { apply strong1; auto. apply Cn_nonneg; auto. intros b Hb.
    destruct (oslack_feasible d _ _ _ _ _ _ b HF HP) as [FEb VAb]. assert (Hb' := Hb). apply FEb in Hb. apply OPT in Hb.
    rewrite VA, VAb in Hb; auto. 2:{ apply Hb'. }
    set (x := dual1_value d cs a) in *; set (y := dual1_value d cs b) in *;
    set (u := reg * normsq a / (1 + 1)) in *; set (z := reg * normsq b / (1 + 1)) in *; clearbody x y u z; qclra. }
  rewrite VA by auto. split.
  - eapply Qcle_trans; [exact SD|]. apply Qceq_le. ring.
  - intros w' xi Hw' HX. assert (WD := weak1 d _ None cs a w' xi HF HFe Hw' HX). eapply Qcle_trans; [exact SD|].
    set (x := dual1_value d cs a) in *. set (y := reg * (C * ofN n * (C * ofN n))) in *.
    set (z := C * ofN n * xi) in *. clearbody x y z. qclra.
Qed.
Lemma oneslack_strong0 d C n cs p a : 0 <= C -> Forall (fun c => length (fst c) = d) cs ->
  one_slack_problem C None n (map fst cs) (map snd cs) 0 = Ok p -> qp_optimal p a ->
  exists w v, weights a (map fst cs) = Ok w /\ worst w cs v /\
    - qp_value p a = C * ofN n * v + normsq w / (1 + 1) /\
    forall w' xi, length w' = d -> (forall c, In c cs -> violation w' c <= xi) ->
      C * ofN n * v + normsq w / (1 + 1) <= C * ofN n * xi + normsq w' / (1 + 1).
Proof.
  intros HC HF HP HO. destruct (oneslack_strong d C n cs 0 p a (Qcle_refl _) HC HF HP HO) as [w [v [E [W [A B]]]]].
  destruct (oneslack_weak d C None n cs 0 p a (Qcle_refl _) HF HP (proj1 HO)) as [w2 [E2 [L [_ W2]]]].
  assert (w2 = w) by congruence. subst w2. exists w, v. split; auto. split; auto.
  split.
  - apply Qcle_antisym. { apply W2; auto. apply W. } eapply Qcle_trans; [exact A|]. apply Qceq_le. field. discriminate.
  - intros w' xi H1 H2. eapply Qcle_trans; [apply B; eauto|]. apply Qceq_le. ring.
Qed.

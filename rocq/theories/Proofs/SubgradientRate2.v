(** Growth of the sums of divisors; slices; components. *)
From Coq Require Import ZArith Permutation.
From Verif Require Import Model.Subgradient Proofs.Arrays Proofs.LossProofs Proofs.CRFProofs Proofs.LearnerProofs Proofs.QPProofs
  Proofs.NSlackProofs5 Proofs.OneSlackProofs Proofs.OneSlackProofs2 Proofs.FWRate5 Proofs.SubgradientProofs Proofs.SubgradientProofs2 Proofs.SubgradientProofs3 Proofs.SubgradientProofs4
  Spec.SubgradientRateSpec Proofs.SubgradientRate.

(** ** sums of divisors *)
Lemma inv_le a b : 0 < a -> a <= b -> / b <= / a.
Proof.
  intros Ha Hb. assert (P : 0 < b) by (eapply Qclt_le_trans; eauto). assert (NA : a <> 0) by (intro Z; subst; discriminate Ha). assert (NB : b <> 0) by (intro Z; subst; discriminate P).
  apply Qcle_trans with (a * / b * / a).
  - match goal with |- ?x <= ?y => replace y with x; [apply Qcle_refl|] end. field. auto.
  - rewrite <- (Qcmult_1_l (/ a)) at 2. apply Qcmult_le_compat_r; [|apply Qclt_le_weak, Qcinv_pos; exact Ha].
    rewrite <- (Qcmult_inv_r b) by exact NB. apply Qcmult_le_compat_r; [exact Hb|apply Qclt_le_weak, Qcinv_pos; exact P].
Qed.
Lemma divisors_nonneg m E : forall s, 0 < s -> 0 <= divisors m s E.
Proof.
  induction E as [|E IH]; intros s Hs; cbn [divisors]; [apply Qcle_refl|]. assert (PM := ofN_nonneg m). assert (Q := Qcinv_pos s Hs).
  assert (I := IH (s + ofN m) ltac:(clear - Hs PM; qclra)). clear - Q I. qclra.
Qed.
Lemma divisors_tail m E a : 0 < a -> forall s, a <= s -> divisors m s E <= ofN E * / a.
Proof.
  intro Ha. induction E as [|E IH]; intros s Hs; cbn [divisors].
  - rewrite ofN_0. replace (0 * / a) with 0 by ring. apply Qcle_refl.
  - rewrite ofN_S. replace ((1 + ofN E) * / a) with (/ a + ofN E * / a) by ring. apply Qcplus_le_compat; [apply inv_le; auto|]. apply IH.
    assert (PM := ofN_nonneg m). clear - Hs PM. qclra.
Qed.
Lemma divisors_split m E j : (0 < m)%nat -> forall s, 1 <= s -> divisors m s E <= ofN j + ofN E * / (s + ofN j).
Proof.
  intro Hm. revert E. induction j as [|j IH]; intros E s Hs.
  - rewrite ofN_0. replace (s + 0) with s by ring. replace (0 + ofN E * / s) with (ofN E * / s) by ring. apply divisors_tail; [apply ge1_pos; exact Hs|apply Qcle_refl].
  - assert (PJ := ofN_nonneg j). assert (PS := ge1_pos s Hs). destruct E as [|E]; cbn [divisors].
    + rewrite ofN_0, ofN_S. replace (1 + ofN j + 0 * / (s + (1 + ofN j))) with (1 + ofN j) by ring. clear - PJ. qclra.
    + assert (PM : 1 <= ofN m). { destruct m as [|m']; [lia|]. rewrite ofN_S. assert (Q := ofN_nonneg m'). clear - Q. qclra. }
      assert (I := IH E (s + ofN m) ltac:(clear - Hs PM; qclra)). assert (PE := ofN_nonneg E).
      assert (P1 : 0 < s + ofN (S j)) by (rewrite ofN_S; clear - PS PJ; qclra).
      assert (V1 : / s <= 1). { rewrite <- (Qcmult_inv_r 1) by discriminate. rewrite Qcmult_1_l. apply inv_le; [reflexivity|exact Hs]. }
      assert (V2 : / (s + ofN m + ofN j) <= / (s + ofN (S j))). { apply inv_le; [exact P1|]. rewrite ofN_S. clear - PM. qclra. }
      assert (V3 : ofN E * / (s + ofN m + ofN j) <= ofN E * / (s + ofN (S j))) by (rewrite !(Qcmult_comm (ofN E)); apply Qcmult_le_compat_r; auto).
      assert (V4 := Qcinv_pos _ P1). rewrite (ofN_S E), (ofN_S j) in *. set (a := / (s + (1 + ofN j))) in *. replace ((1 + ofN E) * a) with (a + ofN E * a) by ring.
      set (b := ofN E * a) in *. set (c := ofN E * / (s + ofN m + ofN j)) in *. set (e := / s) in *. set (D := divisors m (s + ofN m) E) in *. clearbody a b c e D.
      clear - I V1 V3 V4. qclra.
Qed.
(** a + b * (sum of divisors) grows more slowly than any c * E *)
Lemma divisors_slow m a b c : (0 < m)%nat -> 0 <= b -> 0 < c -> exists N, (0 < N)%nat /\ forall E s, (N <= E)%nat -> 1 <= s -> a + b * divisors m s E <= c * ofN E.
Proof.
  intros Hm Hb Hc. assert (NC : c <> 0) by (intro Z; subst; discriminate Hc). assert (IC := Qcinv_pos c Hc).
  destruct (archimedes ((b + b) / c)) as [j Hj]. assert (PJ := ofN_nonneg j).
  destruct (archimedes ((a + a + (b + b) * ofN j) / c)) as [N HN]. exists (Datatypes.S N). split; [lia|]. intros E s HE Hs.
  assert (PE := ofN_nonneg E). assert (D := divisors_split m E j Hm s Hs).
  assert (PJ1 : 0 < 1 + ofN j) by (clear - PJ; qclra). assert (NJ1 : 1 + ofN j <> 0) by (intro Z; rewrite Z in PJ1; discriminate PJ1).
  assert (D2 : divisors m s E <= ofN j + ofN E * / (1 + ofN j)).
  { eapply Qcle_trans; [exact D|]. apply Qcplus_le_compat; [apply Qcle_refl|]. rewrite !(Qcmult_comm (ofN E)). apply Qcmult_le_compat_r; [|exact PE].
    apply inv_le; [exact PJ1|]. clear - Hs. qclra. }
  (* b / (1 + j) <= c / 2 *)
  assert (B1 : (b + b) * / (1 + ofN j) <= c).
  { apply Qcle_trans with (c * (1 + ofN j) * / (1 + ofN j)).
    - apply Qcmult_le_compat_r; [|apply Qclt_le_weak, Qcinv_pos; exact PJ1].
      apply Qcle_trans with ((b + b) / c * c). { match goal with |- ?x <= ?y => replace y with x; [apply Qcle_refl|] end. field. exact NC. }
      rewrite (Qcmult_comm c). apply Qcmult_le_compat_r; [|apply Qclt_le_weak; exact Hc]. set (q := (b + b) / c) in *. clearbody q. clear - Hj. qclra.
    - rewrite <- Qcmult_assoc, Qcmult_inv_r, Qcmult_1_r by exact NJ1. apply Qcle_refl. }
  assert (EN : ofN N <= ofN E). { replace E with (N + (E - N))%nat by lia. rewrite ofN_plus. assert (Q := ofN_nonneg (E - N)). clear - Q. qclra. }
  assert (A1 : a + a + (b + b) * ofN j <= c * ofN E).
  { apply Qcle_trans with ((a + a + (b + b) * ofN j) / c * c). { match goal with |- ?x <= ?y => replace y with x; [apply Qcle_refl|] end. field. exact NC. }
    rewrite (Qcmult_comm c). apply Qcmult_le_compat_r; [|apply Qclt_le_weak; exact Hc]. eapply Qcle_trans; [apply Qclt_le_weak; exact HN|exact EN]. }
  apply (Qcmult_le_compat_r _ _ b) in D2; [|exact Hb]. apply (Qcmult_le_compat_r _ _ (ofN E)) in B1; [|exact PE].
  rewrite (Qcmult_comm b). set (x := divisors m s E * b) in *. replace ((ofN j + ofN E * / (1 + ofN j)) * b) with (b * ofN j + b * / (1 + ofN j) * ofN E) in D2 by ring.
  replace ((b + b) * ofN j) with (b * ofN j + b * ofN j) in A1 by ring. replace ((b + b) * / (1 + ofN j) * ofN E) with (b * / (1 + ofN j) * ofN E + b * / (1 + ofN j) * ofN E) in B1 by ring.
  set (y := b * ofN j) in *. set (z := b * / (1 + ofN j) * ofN E) in *. set (ce := c * ofN E) in *. clearbody x y z ce. clear - D2 B1 A1. qclra.
Qed.
Lemma divisors_strided m t0 E : forall a, divisors m (ofN a + t0) E = strided t0 a m E.
Proof.
  unfold strided. induction E as [|E IH]; intro a; [reflexivity|]. cbn [divisors seq map lsum]. replace (a + 0 * m)%nat with a by lia. f_equal.
  replace (ofN a + t0 + ofN m) with (ofN (a + m) + t0) by (rewrite ofN_plus; ring). rewrite IH. f_equal. rewrite <- seq_shift, map_map. apply map_ext. intro e. f_equal. f_equal. f_equal. lia.
Qed.

(** ** slices *)
Lemma skipn_twice {A} x y (l : list A) : skipn x (skipn y l) = skipn (y + x) l.
Proof. revert l. induction y as [|y IH]; intro l; [reflexivity|]. destruct l as [|a l]; [cbn; apply skipn_nil|]. cbn [Nat.add skipn]. apply IH. Qed.
Lemma slice_app {A} a b c (l : list A) : (a <= b <= c)%nat -> slice a b l ++ slice b c l = slice a c l.
Proof.
  intro H. unfold slice. replace (skipn b l) with (skipn (b - a) (skipn a l)).
  - rewrite <- (firstn_skipn (b - a) (firstn (c - a) (skipn a l))). rewrite firstn_firstn. replace (Nat.min (b - a) (c - a)) with (b - a)%nat by lia.
    f_equal. rewrite skipn_firstn_comm. f_equal. lia.
  - rewrite skipn_twice. f_equal. lia.
Qed.
Lemma even_concat {A} (l : list A) n q rest packs : length l = n -> forall start, (start + packs * q + rest = n)%nat -> (rest <= packs)%nat ->
  concat (map (fun s => slice (fst s) (snd s) l) (even_slices_from start n q rest packs)) = skipn start l.
Proof.
  intro HL. revert rest. induction packs as [|k IH]; intros rest start E R; cbn [even_slices_from].
  - cbn [map concat]. symmetry. apply skipn_all2. lia.
  - set (len := (q + (if (0 <? rest)%nat then 1 else 0))%nat).
    assert (LEN : (start + len + (k * q + (rest - 1)) = n)%nat) by (unfold len; destruct (Nat.ltb_spec 0 rest); simpl in E; lia).
    destruct (Nat.ltb_spec 0 len) as [P|P].
    + replace (Nat.min n (start + len)) with (start + len)%nat by lia. cbn [map concat fst snd]. rewrite IH by lia.
      rewrite (skipn_as_slice (start + len)), (skipn_as_slice start). apply slice_app. lia.
    + rewrite IH by lia. reflexivity.
Qed.
Lemma even_sizes {A} (l : list A) n q rest packs : length l = n -> (0 < q)%nat -> forall start, (start + packs * q + rest = n)%nat -> (rest <= packs)%nat ->
  map (@length A) (map (fun s => slice (fst s) (snd s) l) (even_slices_from start n q rest packs)) = repeat (Datatypes.S q) rest ++ repeat q (packs - rest).
Proof.
  intros HL HQ. revert rest. induction packs as [|k IH]; intros rest start E R; cbn [even_slices_from].
  - replace rest with O by lia. reflexivity.
  - set (len := (q + (if (0 <? rest)%nat then 1 else 0))%nat).
    assert (LEN : (start + len + (k * q + (rest - 1)) = n)%nat) by (unfold len; destruct (Nat.ltb_spec 0 rest); simpl in E; lia).
    destruct (Nat.ltb_spec 0 len) as [P|P]; [|unfold len in P; lia].
    replace (Nat.min n (start + len)) with (start + len)%nat by lia. cbn [map fst snd]. rewrite IH by lia. rewrite slice_length by lia.
    unfold len. destruct rest as [|r].
    + cbn [Nat.ltb Nat.leb Nat.sub repeat app]. rewrite Nat.sub_0_r. f_equal. lia.
    + destruct (Nat.ltb_spec 0 (Datatypes.S r)); [|lia]. cbn [repeat app Nat.sub]. rewrite Nat.sub_0_r. f_equal. lia.
Qed.
Lemma batch_count_bounds n b : (0 < n)%nat -> (0 < b)%nat -> (0 < batch_count n b <= n)%nat /\ (n <= b * batch_count n b)%nat /\ (b * (batch_count n b - 1) < n)%nat.
Proof.
  intros Hn Hb. unfold batch_count. assert (D := Nat.div_mod (n + b - 1) b ltac:(lia)). assert (M := Nat.mod_upper_bound (n + b - 1) b ltac:(lia)).
  set (p := ((n + b - 1) / b)%nat) in *. assert (P : (0 < p)%nat) by (destruct p; [lia|lia]). assert (b * (p - 1) < n)%nat by nia. assert (n <= b * p)%nat by nia. nia.
Qed.
(** the batches of a training set *)
Lemma slices_facts {A} (l : list A) b : (0 < length l)%nat -> (0 < b)%Z -> exists sl, sg_slices (length l) b = Ok sl /\
  let Bs := map (fun s => slice (fst s) (snd s) l) sl in
  concat Bs = l /\ length Bs = batch_count (length l) (Z.to_nat b) /\ Forall (fun B => B <> []) Bs /\ Forall (fun B => (length B <= Z.to_nat b)%nat) Bs /\
  (forall k, length l = (k * Z.to_nat b)%nat -> Forall (fun B => length B = Z.to_nat b) Bs) /\
  map (@length A) Bs = even_sizes_of (length l) (batch_count (length l) (Z.to_nat b)).
Proof.
  intros Hn Hb. set (n := length l) in *. unfold sg_slices. destruct (Z.eqb_spec b 0); [lia|]. destruct (Z.ltb_spec b 0); [lia|]. set (bb := Z.to_nat b). assert (HB : (0 < bb)%nat) by (unfold bb; lia).
  unfold gen_even_slices. fold (batch_count n bb). destruct (batch_count_bounds n bb Hn HB) as [B1 [B2 B3]]. set (p := batch_count n bb) in *.
  destruct (Nat.ltb_spec p 1); [lia|]. eexists. split; [reflexivity|]. cbv zeta.
  assert (D := Nat.div_mod n p ltac:(lia)). assert (M := Nat.mod_upper_bound n p ltac:(lia)). set (q := (n / p)%nat) in *. set (r := (n mod p)%nat) in *.
  assert (HQ : (0 < q)%nat) by (apply Nat.div_str_pos; lia). assert (HE : (0 + p * q + r = n)%nat) by lia.
  split; [apply (even_concat l n q r p eq_refl O HE ltac:(lia))|].
  assert (SZ := even_sizes l n q r p eq_refl HQ O HE ltac:(lia)). set (Bs := map (fun s => slice (fst s) (snd s) l) _) in *.
  split. { rewrite <- (map_length (@length A) Bs), SZ, app_length, !repeat_length. lia. }
  assert (IN : forall B, In B Bs -> length B = Datatypes.S q /\ (0 < r)%nat \/ length B = q).
  { intros B HI. apply (in_map (@length A)) in HI. rewrite SZ in HI. apply in_app_or in HI. destruct HI as [HI|HI]; [|right; apply repeat_spec in HI; exact HI].
    left. assert (HI' := HI). apply repeat_spec in HI. split; [exact HI|]. destruct r; [destruct HI'|lia]. }
  split. { apply Forall_forall. intros B HI E. subst B. destruct (IN [] HI) as [[Z _]|Z]; cbn in Z; lia. }
  assert (QB : (q < bb \/ q = bb /\ r = O)%nat).
  { destruct (Nat.lt_ge_cases q bb) as [LT|GE]; [left; exact LT|right]. assert (A1 : (p * bb <= p * q)%nat) by (apply Nat.mul_le_mono_l; exact GE). rewrite (Nat.mul_comm bb p) in B2.
    assert (A2 : (p * q = p * bb)%nat) by lia. assert (A3 := proj1 (Nat.mul_cancel_l q bb p ltac:(lia)) A2). lia. }
  split. { apply Forall_forall. intros B HI. fold bb. destruct (IN B HI) as [[Z Z']|Z]; lia. }
  split; [|exact SZ]. intros k Hk. fold bb in Hk |- *. assert (PK : p = k) by (clear - B2 B3 Hk HB Hn B1; nia).
  assert (QR : q = bb /\ r = O). { destruct QB as [QB|QB]; [|exact QB]. subst k. assert (p * q + p <= p * bb)%nat by (replace (p * q + p)%nat with (p * (q + 1))%nat by lia; apply Nat.mul_le_mono_l; lia). lia. }
  apply Forall_forall. intros B HI. destruct (IN B HI) as [[Z Z']|Z]; lia.
Qed.

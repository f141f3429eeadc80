(** Proofs for C79, first part: picture features and constraints. *)
From Coq Require Import String ZArith Lia Bool.
From Verif Require Import Spec.TwoTypesSpec Proofs.Arrays Proofs.Snakes Proofs.HiddenSnakes Proofs.HiddenSnakes2 Proofs.HiddenSnakes3 Proofs.SwapTypes.
Local Open Scope nat_scope.

(** ** Picture features *)
Lemma all_NoDup h w : NoDup (list_prod (seq 0 h) (seq 0 w)).
Proof.
  generalize (seq_NoDup h 0). induction (seq 0 h) as [|i l IH]; cbn; [constructor|]. intros H. inversion H as [|? ? Hi Hl]; subst.
  assert (NM : NoDup (map (fun y => (i, y)) (seq 0 w))).
  { apply FinFun.Injective_map_NoDup; [intros a b E; congruence|apply seq_NoDup]. }
  assert (D : forall a, In a (map (fun y => (i, y)) (seq 0 w)) -> In a (list_prod l (seq 0 w)) -> False).
  { intros [a b] H1 H2. apply in_map_iff in H1 as [y [E _]]. injection E as -> ->. apply in_prod_iff in H2. tauto. }
  revert NM D. generalize (map (fun y => (i, y)) (seq 0 w)). intros m NM D.
  induction m as [|a m IHm]; cbn; [exact (IH Hl)|]. inversion NM; subst. constructor.
  - intros H0. apply in_app_iff in H0 as [H0|H0]; [contradiction|]. exact (D a (or_introl eq_refl) H0).
  - apply IHm; [assumption|]. intros b Hb. apply D. right. exact Hb.
Qed.
Lemma in_lit p c a : In a (lit_cells p c) <-> fst a < a_h p /\ snd a < a_w p /\ aget p (fst a) (snd a) c = 1%Qc.
Proof.
  unfold lit_cells. rewrite filter_In. destruct a as [i j]. cbn [fst snd]. rewrite in_prod_iff, !in_seq.
  destruct (Qceqb (aget p i j c) 1) eqn:E; [apply Qceqb_eq in E|apply Qceqb_neq in E]; intuition (try lia; try congruence; try discriminate).
Qed.
Lemma lit_count p c n : channel_count p c n <-> length (lit_cells p c) = n.
Proof.
  assert (ND : NoDup (lit_cells p c)) by (apply NoDup_filter, all_NoDup). split.
  - intros [l [N [<- I]]]. apply Nat.le_antisymm; apply NoDup_incl_length; try assumption; intros a Ha.
    + apply I. apply in_lit. exact Ha.
    + apply in_lit. apply I. exact Ha.
  - intros <-. exists (lit_cells p c). split; [exact ND|]. split; [reflexivity|]. intro a. apply in_lit.
Qed.
Lemma colour_rows_unique p a b a' b' : colour_rows p a b -> colour_rows p a' b' -> a = a' /\ b = b'.
Proof.
  intros [[j1 A1] [[j2 A2] A3]] [[j3 B1] [[j4 B2] B3]].
  pose proof (A3 _ B1) as H1. pose proof (A3 _ B2) as H2. pose proof (B3 _ A1) as H3. pose proof (B3 _ A2) as H4. cbn [fst] in *. lia.
Qed.
Lemma colour_cols_unique p a b a' b' : colour_cols p a b -> colour_cols p a' b' -> a = a' /\ b = b'.
Proof.
  intros [[j1 A1] [[j2 A2] A3]] [[j3 B1] [[j4 B2] B3]].
  pose proof (A3 _ B1) as H1. pose proof (A3 _ B2) as H2. pose proof (B3 _ A1) as H3. pose proof (B3 _ A2) as H4. cbn [snd] in *. lia.
Qed.

Lemma features_ok (p : arr3) : 5 <= a_c p -> (exists a, coloured p a) ->
  exists m i0 i1 j0 j1, picture_features p = Ok m /\ mat_ok m /\ mrows m = 1 /\ mcols m = 7 /\
    (forall c, c < 5 -> exists n, channel_count p c n /\ mget m 0 c = ofN n) /\
    colour_rows p i0 i1 /\ colour_cols p j0 j1 /\ mget m 0 5 = ofN (i1 - i0) /\ mget m 0 6 = ofN (j1 - j0).
Proof.
  intros C [a Ha]. unfold picture_features. rewrite (proj2 (Nat.leb_le _ _) C). cbn [ensure bind].
  assert (NE1 : map fst (cells p) <> []).
  { intros E. apply in_cells in Ha. apply (in_map fst) in Ha. rewrite E in Ha. exact Ha. }
  assert (NE2 : map snd (cells p) <> []).
  { intros E. apply in_cells in Ha. apply (in_map snd) in Ha. rewrite E in Ha. exact Ha. }
  destruct (max_of_ok _ NE1) as [i1 [E1 [I1 M1]]]. destruct (min_of_ok _ NE1) as [i0 [E0 [I0 M0]]].
  destruct (max_of_ok _ NE2) as [j1 [F1 [J1 N1]]]. destruct (min_of_ok _ NE2) as [j0 [F0 [J0 N0]]].
  rewrite E1, E0, F1, F0. cbn [bind]. eexists. exists i0, i1, j0, j1. split; [reflexivity|].
  split; [apply mtab_ok|]. split; [reflexivity|]. split; [reflexivity|].
  split; [|split; [|split; [|split]]].
  - intros c Hc. exists (length (lit_cells p c)). split; [apply lit_count; reflexivity|].
    rewrite mget_mtab by lia. do 5 (destruct c as [|c]; [reflexivity|]). lia.
  - split; [|split].
    + apply in_map_iff in I0 as [[i j] [E I]]. cbn in E. subst i. exists j. apply in_cells. exact I.
    + apply in_map_iff in I1 as [[i j] [E I]]. cbn in E. subst i. exists j. apply in_cells. exact I.
    + intros b Hb. apply in_cells in Hb. apply (in_map fst) in Hb. split; [apply M0|apply M1]; exact Hb.
  - split; [|split].
    + apply in_map_iff in J0 as [[i j] [E I]]. cbn in E. subst j. exists i. apply in_cells. exact I.
    + apply in_map_iff in J1 as [[i j] [E I]]. cbn in E. subst j. exists i. apply in_cells. exact I.
    + intros b Hb. apply in_cells in Hb. apply (in_map snd) in Hb. split; [apply N0|apply N1]; exact Hb.
  - rewrite mget_mtab by lia. reflexivity.
  - rewrite mget_mtab by lia. reflexivity.
Qed.
Lemma features_errors (p : arr3) :
  (a_c p < 5 -> picture_features p = Err IndexError) /\
  (5 <= a_c p -> (forall a, ~ coloured p a) -> picture_features p = Err ValueError).
Proof.
  split.
  - intros C. unfold picture_features. rewrite (proj2 (Nat.leb_gt _ _) C). reflexivity.
  - intros C N. unfold picture_features. rewrite (proj2 (Nat.leb_le _ _) C). cbn [ensure bind].
    destruct (cells p) as [|a l] eqn:E; [reflexivity|]. exfalso. apply (N a). apply in_cells. rewrite E. left. reflexivity.
Qed.
(** the counts of a one-hot picture add up to the number of pixels *)
Lemma partition_count {A} (f : nat -> A -> bool) n l :
  (forall a, In a l -> exists c, c < n /\ f c a = true /\ forall c', c' < n -> c' <> c -> f c' a = false) ->
  list_sum (map (fun c => length (filter (f c) l)) (seq 0 n)) = length l.
Proof.
  induction l as [|a l IH]; intros H.
  - cbn [filter length]. clear. induction (seq 0 n); cbn; [reflexivity|assumption].
  - specialize (IH (fun b Hb => H b (or_intror Hb))). destruct (H a (or_introl eq_refl)) as [c [Hc [F N]]].
    cbn [length]. rewrite <- IH. clear IH H.
    assert (G : forall k, k <= n -> list_sum (map (fun c0 => length (filter (f c0) (a :: l))) (seq 0 k)) =
                          (if c <? k then 1 else 0) + list_sum (map (fun c0 => length (filter (f c0) l)) (seq 0 k))).
    { induction k as [|k IHk]; intros K; [reflexivity|]. rewrite seq_S, !map_app, !list_sum_app, IHk by lia. cbn [map list_sum fold_right Nat.add].
      cbn [filter]. destruct (Nat.eqb_spec k c) as [->|E].
      - rewrite F. cbn [length]. destruct (Nat.ltb_spec c c); [lia|]. destruct (Nat.ltb_spec c (S c)); lia.
      - rewrite (N k) by lia. destruct (Nat.ltb_spec c k), (Nat.ltb_spec c (S k)); lia. }
    rewrite (G n) by lia. destruct (Nat.ltb_spec c n); lia.
Qed.
Lemma counts_total (p : arr3) (ns : nat -> nat) : one_hot_picture p -> (forall c, c < 5 -> channel_count p c (ns c)) ->
  list_sum (map ns (seq 0 5)) = a_h p * a_w p.
Proof.
  intros [C H] N.
  transitivity (list_sum (map (fun c => length (lit_cells p c)) (seq 0 5))).
  - f_equal. apply map_ext_in. intros c Hc. apply in_seq in Hc. symmetry. apply lit_count. apply N. lia.
  - unfold lit_cells. rewrite partition_count.
    + rewrite prod_length, !seq_length. reflexivity.
    + intros [i j] I. apply in_prod_iff in I as [I J]. apply in_seq in I, J. destruct (H i j) as [c [Hc [E D]]]; try lia. cbn [fst snd].
      exists c. split; [exact Hc|]. split; [apply Qceqb_eq; exact E|]. intros c' Hc' Ne. apply Qceqb_neq. exact (D c' Hc' Ne).
Qed.
(** a distorted picture has the same background, height and width *)
Lemma distortion (p q : arr3) (a b : nat * nat) (m : mat) : 5 <= a_c p -> coloured p a -> coloured p b -> recoloured p q a b ->
  picture_features p = Ok m ->
  exists m', picture_features q = Ok m' /\ mget m' 0 3 = mget m 0 3 /\ mget m' 0 5 = mget m 0 5 /\ mget m' 0 6 = mget m 0 6.
Proof.
  intros C Ha Hb R E.
  assert (EQ : forall x, coloured q x <-> coloured p x) by (apply (recoloured_coloured p q a b); [lia|assumption..]).
  assert (Cq : 5 <= a_c q) by (destruct R as [_ [_ [-> _]]]; exact C).
  destruct (features_ok p C (ex_intro _ a Ha)) as [m0 [i0 [i1 [j0 [j1 [E0 [_ [_ [_ [N [RR [CC [E5 E6]]]]]]]]]]]]].
  rewrite E in E0. apply Ok_inj in E0. subst m0.
  destruct (features_ok q Cq (ex_intro _ a (proj2 (EQ a) Ha))) as [m' [i0' [i1' [j0' [j1' [E0' [_ [_ [_ [N' [RR' [CC' [E5' E6']]]]]]]]]]]]].
  exists m'. split; [exact E0'|].
  assert (RQ : colour_rows p i0' i1').
  { destruct RR' as [[x1 P1] [[x2 P2] P3]]. split; [|split].
    - exists x1. apply EQ. exact P1.
    - exists x2. apply EQ. exact P2.
    - intros z Hz. apply P3. apply EQ. exact Hz. }
  assert (CQ : colour_cols p j0' j1').
  { destruct CC' as [[x1 P1] [[x2 P2] P3]]. split; [|split].
    - exists x1. apply EQ. exact P1.
    - exists x2. apply EQ. exact P2.
    - intros z Hz. apply P3. apply EQ. exact Hz. }
  destruct (colour_rows_unique _ _ _ _ _ RR RQ) as [-> ->]. destruct (colour_cols_unique _ _ _ _ _ CC CQ) as [-> ->].
  split; [|split; congruence].
  destruct (N 3 ltac:(lia)) as [n3 [C3 ->]]. destruct (N' 3 ltac:(lia)) as [n3' [C3' ->]]. f_equal.
  destruct C3 as [l [ND [L I]]]. destruct C3' as [l' [ND' [L' I']]].
  assert (S : forall x, In x l <-> In x l').
  { intros x. rewrite I, I'. destruct R as [Rh [Rw [Rc _]]]. rewrite Rh, Rw. specialize (EQ x). unfold coloured in EQ. rewrite Rh, Rw in EQ.
    destruct (Qc_eq_dec (aget q (fst x) (snd x) 3) 1), (Qc_eq_dec (aget p (fst x) (snd x) 3) 1); intuition. }
  rewrite <- L, <- L'. apply Nat.le_antisymm; apply NoDup_incl_length; try assumption; intros x Hx; apply S; exact Hx.
Qed.

(** ** makeItEasy *)
Lemma easy_ok (lX : list mat) : forall (lY : list Z), Forall (fun m => mrows m = 1 /\ mcols m = 7) lX ->
  exists lX', makeItEasy lX lY = Ok lX' /\ length lX' = length lX /\
    forall k m, nth_error lX k = Some m ->
      match nth_error lY k with
      | Some y => exists m', nth_error lX' k = Some m' /\ mrows m' = 1 /\ mcols m' = 7 /\ forall f, f < 7 -> mget m' 0 f = ofZ y
      | None => nth_error lX' k = Some m
      end.
Proof.
  induction lX as [|m lX IH]; intros lY F.
  - exists []. split; [destruct lY; reflexivity|]. split; [reflexivity|]. intros [|k] m E; discriminate E.
  - inversion F as [|? ? [Hr Hc] F']; subst. destruct lY as [|y lY].
    + exists (m :: lX). split; [reflexivity|]. split; [reflexivity|]. intros k m' E. destruct k; exact E.
    + destruct (IH lY F') as [l' [E [L N]]]. cbn [makeItEasy]. unfold set_first_row. rewrite Hr, Hc. cbn [Nat.ltb Nat.leb ensure bind]. rewrite E. cbn [bind].
      eexists. split; [reflexivity|]. split; [cbn [length]; congruence|].
      intros [|k] m' Ek; cbn [nth_error] in *.
      * injection Ek as <-. eexists. split; [reflexivity|]. split; [reflexivity|]. split; [reflexivity|].
        intros f Hf. rewrite mget_mtab by lia. reflexivity.
      * exact (N k m' Ek).
Qed.
Lemma easy_error (lX : list mat) (m : mat) (y : Z) (lY : list Z) : mrows m = 0 -> makeItEasy (m :: lX) (y :: lY) = Err IndexError.
Proof. intros E. cbn [makeItEasy]. unfold set_first_row. rewrite E. reflexivity. Qed.

(** ** Constraints *)
Lemma trues_app a b : trues (a ++ b) = trues a + trues b.
Proof. unfold trues. rewrite filter_app, app_length. reflexivity. Qed.
Definition hits (y : nat -> nat) (s n : nat) : list bool := map (fun i => xorb false (y i =? s)) (seq 0 n).
Lemma trues_zero y s n : trues (hits y s n) = 0 <-> forall k, k < n -> y k <> s.
Proof.
  unfold hits. induction n as [|n IH]; [split; [lia|reflexivity]|]. rewrite seq_S, map_app, trues_app. cbn [Nat.add map xorb].
  unfold trues at 2. cbn [filter]. destruct (Nat.eqb_spec (y n) s) as [E|E]; cbn [length].
  - split; [lia|]. intros H. exfalso. apply (H n); [lia|exact E].
  - rewrite Nat.add_0_r, IH. split; intros H k Hk; [|apply H; lia]. destruct (Nat.eq_dec k n) as [->|]; [exact E|apply H; lia].
Qed.
Lemma trues_le_one y s n : trues (hits y s n) <= 1 <-> at_most_one n (fun k => y k = s).
Proof.
  induction n as [|n IH].
  - split; [intros _ k k' H; lia|]. intros _. cbn. lia.
  - assert (T : trues (hits y s (S n)) = trues (hits y s n) + (if y n =? s then 1 else 0)).
    { unfold hits. rewrite seq_S, map_app, trues_app. cbn [Nat.add map xorb]. f_equal. destruct (y n =? s); reflexivity. }
    rewrite T. destruct (Nat.eqb_spec (y n) s) as [E|E].
    + split.
      * intros H k k' Hk Hk' P P'. assert (Z : trues (hits y s n) = 0) by lia. rewrite trues_zero in Z.
        destruct (Nat.eq_dec k n) as [->|]; [|exfalso; apply (Z k); [lia|exact P]].
        destruct (Nat.eq_dec k' n) as [->|]; [reflexivity|exfalso; apply (Z k'); [lia|exact P']].
      * intros H. assert (Z : trues (hits y s n) = 0); [|lia]. apply trues_zero. intros k Hk P.
        pose proof (H k n ltac:(lia) ltac:(lia) P E). lia.
    + rewrite Nat.add_0_r, IH. split; intros H k k' Hk Hk' P P'.
      * apply H; try assumption.
        -- destruct (Nat.eq_dec k n); [subst; contradiction|lia].
        -- destruct (Nat.eq_dec k' n); [subst; contradiction|lia].
      * apply H; try assumption; lia.
Qed.
Lemma trues_pos y s n : 1 <= trues (hits y s n) <-> exists k, k < n /\ y k = s.
Proof.
  split.
  - intros H. induction n as [|n IH]; [cbn in H; lia|].
    destruct (Nat.eq_dec (y n) s) as [E|E]; [exists n; split; [lia|exact E]|]. destruct IH as [k [Hk P]]; [|exists k; split; [lia|exact P]].
    revert H. unfold hits. rewrite seq_S, map_app, trues_app. cbn [Nat.add map xorb]. rewrite (proj2 (Nat.eqb_neq _ _) E). cbn. lia.
  - intros [k [Hk E]]. destruct (trues (hits y s n)) eqn:T; [|lia]. rewrite trues_zero in T. exfalso. exact (T k Hk E).
Qed.
Lemma trues_one y s n : trues (hits y s n) = 1 <-> exactly_one n (fun k => y k = s).
Proof.
  split.
  - intros H. destruct (proj1 (trues_pos y s n)) as [k [Hk E]]; [lia|]. exists k. split; [exact Hk|]. split; [exact E|].
    intros k' Hk' E'. apply (proj1 (trues_le_one y s n)); try assumption. lia.
  - intros [k [Hk [E U]]]. assert (1 <= trues (hits y s n)) by (apply trues_pos; exists k; tauto).
    assert (trues (hits y s n) <= 1); [|lia]. apply trues_le_one. intros a b Ha Hb Pa Pb. rewrite (U a Ha Pa), (U b Hb Pb). reflexivity.
Qed.
Lemma forallb_hits y s n : forallb (fun b => b) (hits y s n) = true <-> forall k, k < n -> y k = s.
Proof.
  unfold hits. rewrite forallb_forall. split.
  - intros H k Hk. apply Nat.eqb_eq. rewrite <- (xorb_false_l (y k =? s)). apply H. apply in_map_iff. exists k. split; [reflexivity|]. apply in_seq. lia.
  - intros H b Hb. apply in_map_iff in Hb as [k [<- Hk]]. apply in_seq in Hk. rewrite xorb_false_l. apply Nat.eqb_eq. apply H. lia.
Qed.
Lemma two_bits y n s s' : constraint_bits y [(seq 0 n, Some s, Some false); ([0], Some s', Some false)] = hits (y 0) s n ++ [y 1 0 =? s'].
Proof. rewrite <- (xorb_false_l (y 1 0 =? s')). reflexivity. Qed.
Lemma removelast_last {A} (l : list A) a d : removelast (l ++ [a]) = l /\ last (l ++ [a]) d = a.
Proof. split; [apply removelast_last|apply last_last]. Qed.

Lemma snake_constraints_iff (ncell n : nat) (y : nat -> nat -> nat) : y 1 0 < 2 ->
  (all_satisfied y (snake_constraints ncell n) <->
   (y 1 0 = 0 /\ forall k, k < n -> y 0 k = 0) \/
   (y 1 0 = 1 /\ (exists k, k < n /\ y 0 k <> 0) /\ forall s, 1 <= s <= ncell -> exactly_one n (fun k => y 0 k = s))).
Proof.
  intros B. unfold all_satisfied, snake_constraints. rewrite Forall_cons_iff. rewrite Forall_map, Forall_forall.
  assert (A : satisfied y ("ANDOUT"%string, [(seq 0 n, Some 0, Some false); ([0], Some 0, Some false)]) <->
              (y 1 0 =? 0) = forallb (fun b => b) (hits (y 0) 0 n)).
  { unfold satisfied. cbn [fst snd]. rewrite two_bits. unfold operator_holds. cbn [String.eqb Ascii.eqb Bool.eqb].
    destruct (removelast_last (hits (y 0) 0 n) (y 1 0 =? 0) false) as [-> ->]. reflexivity. }
  rewrite A. clear A.
  assert (X : forall s, satisfied y ("XOROUT"%string, [(seq 0 n, Some s, Some false); ([0], Some 1, Some false)]) <->
              trues (hits (y 0) s n) + (if y 1 0 =? 1 then 0 else 1) = 1).
  { intros s. unfold satisfied. cbn [fst snd]. rewrite two_bits. unfold operator_holds. cbn [String.eqb Ascii.eqb Bool.eqb].
    destruct (removelast_last (hits (y 0) s n) (y 1 0 =? 1) false) as [-> ->]. rewrite trues_app.
    destruct (y 1 0 =? 1); reflexivity. }
  assert (C : y 1 0 = 0 \/ y 1 0 = 1) by lia. destruct C as [C|C]; rewrite C in *; cbn [Nat.eqb] in *.
  - split.
    + intros [H _]. left. split; [reflexivity|]. apply forallb_hits. symmetry. exact H.
    + intros [[_ H]|[H _]]; [|discriminate H]. split; [symmetry; apply forallb_hits; exact H|].
      intros s Hs. apply in_seq in Hs. apply X. rewrite (proj2 (trues_zero (y 0) s n)); [reflexivity|]. intros k Hk. rewrite (H k Hk). lia.
  - split.
    + intros [H1 H2]. right. split; [reflexivity|]. split.
      * destruct (existsb (fun k => negb (y 0 k =? 0)) (seq 0 n)) eqn:E.
        -- apply existsb_exists in E as [k [Hk E]]. apply in_seq in Hk. exists k. split; [lia|]. apply negb_true_iff, Nat.eqb_neq in E. exact E.
        -- exfalso. assert (T : forallb (fun b => b) (hits (y 0) 0 n) = true); [|congruence]. apply forallb_hits. intros k Hk.
           destruct (Nat.eq_dec (y 0 k) 0) as [|N]; [assumption|]. assert (existsb (fun k => negb (y 0 k =? 0)) (seq 0 n) = true); [|congruence].
           apply existsb_exists. exists k. split; [apply in_seq; lia|]. apply negb_true_iff, Nat.eqb_neq. exact N.
      * intros s Hs. apply trues_one. specialize (H2 s). rewrite in_seq in H2. apply X in H2; lia.
    + intros [[H _]|[_ [[k [Hk N]] H]]]; [discriminate H|]. split.
      * symmetry. apply not_true_iff_false. intros T. rewrite forallb_hits in T. exact (N (T k Hk)).
      * intros s Hs. apply in_seq in Hs. apply X. rewrite (proj2 (trues_one (y 0) s n) (H s ltac:(lia))). reflexivity.
Qed.
Lemma atmostone_iff (ncell n : nat) (y : nat -> nat -> nat) :
  all_satisfied y (atmostone_constraints ncell n) <-> forall s, 1 <= s <= ncell -> at_most_one n (fun k => y 0 k = s).
Proof.
  unfold all_satisfied, atmostone_constraints. rewrite Forall_map, Forall_forall.
  assert (X : forall s, satisfied y ("ATMOSTONE"%string, [(seq 0 n, Some s, Some false); ([], None, None)]) <-> trues (hits (y 0) s n) <= 1).
  { intros s. unfold satisfied. cbn [fst snd]. unfold constraint_bits. cbn [length seq combine map concat]. rewrite app_nil_r. reflexivity. }
  split.
  - intros H s Hs. apply trues_le_one. apply X. apply H. apply in_seq. lia.
  - intros H s Hs. apply in_seq in Hs. apply X. apply trues_le_one. apply H. lia.
Qed.
Lemma build_iff (bOne : bool) (top : nat) (X : list ef_x) (k : nat) (x : ef_x) (y : nat -> nat -> nat) : nth_error X k = Some x ->
  exists cs, nth_error (buildConstraints bOne top X) k = Some cs /\
    (all_satisfied y cs <-> forall s, 1 <= s < top ->
       if bOne then exactly_one (mrows (ex_features x)) (fun i => y 0 i = s) else at_most_one (mrows (ex_features x)) (fun i => y 0 i = s)).
Proof.
  intros E. unfold buildConstraints. rewrite nth_error_map, E. eexists. split; [reflexivity|].
  unfold all_satisfied. rewrite Forall_map, Forall_forall.
  assert (B : forall s, constraint_bits y [(seq 0 (mrows (ex_features x)), Some s, Some false)] = hits (y 0) s (mrows (ex_features x))).
  { intros s. unfold constraint_bits. cbn [length seq combine map concat]. rewrite app_nil_r. reflexivity. }
  split.
  - intros H s Hs. specialize (H s). rewrite in_seq in H. specialize (H ltac:(lia)). unfold satisfied in H. cbn [fst snd] in H. rewrite B in H.
    destruct bOne; [apply trues_one|apply trues_le_one]; exact H.
  - intros H s Hs. apply in_seq in Hs. specialize (H s ltac:(lia)). unfold satisfied. cbn [fst snd]. rewrite B.
    destruct bOne; [apply trues_one|apply trues_le_one]; exact H.
Qed.
Lemma build_length bOne top X : length (buildConstraints bOne top X) = length X.
Proof. apply map_length. Qed.

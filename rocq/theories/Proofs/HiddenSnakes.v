(** Proofs about isSnakePresent and walkThruSnake. *)
From Coq Require Import ZArith Lia.
From Verif Require Import Spec.HiddenSnakesSpec Proofs.Arrays Proofs.Snakes.

Lemma wrap_nat n i : (i < n)%nat -> wrap n (Z.of_nat i) = Ok i.
Proof.
  intro H. unfold wrap. replace ((0 <=? Z.of_nat i) && (Z.of_nat i <? Z.of_nat n))%Z with true.
  - rewrite Nat2Z.id. reflexivity.
  - symmetry. apply andb_true_iff. split; [apply Z.leb_le|apply Z.ltb_lt]; lia.
Qed.
Lemma find_only {A} (f : A -> bool) l c : In c l -> f c = true -> (forall c', In c' l -> c' <> c -> f c' = false) ->
  (forall a b : A, {a = b} + {a <> b}) -> find f l = Some c.
Proof.
  intros Hin Hc Ho D. induction l as [|a l IH]; [destruct Hin|]. cbn [find].
  destruct (D a c) as [->|N]; [rewrite Hc; reflexivity|].
  rewrite (Ho a (or_introl eq_refl) N). apply IH.
  - destruct Hin as [->|Hin]; [contradiction|exact Hin].
  - intros c' Hc' N'. apply Ho; [right; exact Hc'|exact N'].
Qed.
Lemma color_index_ok p i j c : a_c p = 5%nat -> (i < a_h p)%nat -> (j < a_w p)%nat -> (c < 5)%nat -> aget p i j c = 1 ->
  (forall c', (c' < 5)%nat -> c' <> c -> aget p i j c' <> 1) -> color_index p (Z.of_nat i) (Z.of_nat j) = Ok c.
Proof.
  intros HC Hi Hj Hc E U. unfold color_index. rewrite !wrap_nat by assumption. cbn [bind]. rewrite HC.
  rewrite (find_only _ (seq 0 5) c); [reflexivity| | | |exact Nat.eq_dec].
  - apply in_seq. lia.
  - rewrite E. apply Qceqb_eq. reflexivity.
  - intros c' H' N. apply in_seq in H'. apply Qceqb_neq. apply U; [lia|exact N].
Qed.

Section Walk.
Variable p : arr3.
Hypothesis HO : one_hot_picture p.
Hypothesis HF : framed p.

Definition zc (a : nat * nat) : Z * Z := (Z.of_nat (fst a), Z.of_nat (snd a)).
Lemma same_cell_zc a b : same_cell (zc a) (zc b) = true <-> a = b.
Proof.
  unfold same_cell, zc. cbn [fst snd]. rewrite andb_true_iff, !Z.eqb_eq. destruct a, b; cbn [fst snd]. split.
  - intros [A B]. f_equal; lia.
  - intro E. injection E as -> ->. auto.
Qed.
Lemma existsb_zc b L : existsb (same_cell (zc b)) (map zc L) = true <-> In b L.
Proof.
  rewrite existsb_exists. split.
  - intros [x [Hx E]]. apply in_map_iff in Hx. destruct Hx as [a [<- Ha]]. apply same_cell_zc in E. subst. exact Ha.
  - intro H. exists (zc b). split; [apply in_map, H|apply same_cell_zc; reflexivity].
Qed.

(** the cell a coloured cell points at is in the picture *)
Lemma inside a : coloured p a -> (0 < fst a)%nat /\ (0 < snd a)%nat /\ (S (fst a) < a_h p)%nat /\ (S (snd a) < a_w p)%nat.
Proof.
  intros [Hi [Hj Hc]]. assert (F := HF (fst a) (snd a) Hi Hj).
  assert (N : ~ (fst a = 0 \/ snd a = 0 \/ S (fst a) = a_h p \/ S (snd a) = a_w p)%nat) by (intro K; exact (Hc (F K))). lia.
Qed.
Lemma step a : coloured p a -> exists c d b, color_index p (Z.of_nat (fst a)) (Z.of_nat (snd a)) = Ok c /\ c <> 3%nat /\
  direction c = Ok d /\ (Z.of_nat (fst a) + fst d = Z.of_nat (fst b))%Z /\ (Z.of_nat (snd a) + snd d = Z.of_nat (snd b))%Z /\
  points p a b /\ (fst b < a_h p)%nat /\ (snd b < a_w p)%nat.
Proof.
  intro Ha. destruct (inside a Ha) as [I1 [I2 [I3 I4]]]. destruct Ha as [Hi [Hj Hc]]. destruct HO as [HC H1].
  destruct (H1 _ _ Hi Hj) as [c [C5 [Ec Uc]]].
  assert (K := color_index_ok p _ _ c HC Hi Hj C5 Ec Uc).
  assert (N : c <> 3%nat) by (intro E; rewrite E in Ec; contradiction).
  destruct a as [i j]. cbn [fst snd] in *.
  destruct c as [|[|[|[|[|c]]]]]; try lia.
  - destruct i as [|i]; [lia|]. exists 0%nat, (-1, 0)%Z, (i, j). repeat split; try assumption; cbn [fst snd]; try lia. constructor. exact Ec.
  - exists 1%nat, (1, 0)%Z, (S i, j). repeat split; try assumption; cbn [fst snd]; try lia. constructor. exact Ec.
  - exists 2%nat, (0, 1)%Z, (i, S j). repeat split; try assumption; cbn [fst snd]; try lia. constructor. exact Ec.
  - destruct j as [|j]; [lia|]. exists 4%nat, (0, -1)%Z, (i, j). repeat split; try assumption; cbn [fst snd]; try lia. constructor. exact Ec.
Qed.
Lemma points_fun a b b' : coloured p a -> points p a b -> points p a b' -> b = b'.
Proof.
  intros [Hi [Hj _]] H H'. destruct HO as [_ H1]. destruct (H1 _ _ Hi Hj) as [c [C5 [Ec Uc]]].
  assert (U : forall c', (c' < 5)%nat -> aget p (fst a) (snd a) c' = 1 -> c' = c).
  { intros c' L E. destruct (Nat.eq_dec c' c) as [->|N]; [reflexivity|]. exfalso. exact (Uc c' L N E). }
  clear Hi Hj. destruct H; inversion H'; subst; cbn [fst snd] in *; try reflexivity;
    repeat match goal with K : aget p _ _ _ = 1 |- _ => apply U in K; [|lia] end; congruence.
Qed.
Lemma background b : (fst b < a_h p)%nat -> (snd b < a_w p)%nat -> aget p (fst b) (snd b) 3 = 1 ->
  color_index p (Z.of_nat (fst b)) (Z.of_nat (snd b)) = Ok 3%nat.
Proof.
  intros Hi Hj E. destruct HO as [HC H1]. destruct (H1 _ _ Hi Hj) as [c [C5 [Ec Uc]]].
  destruct (Nat.eq_dec c 3) as [->|N]; [apply color_index_ok; assumption|].
  exfalso. apply (Uc 3%nat); [lia|congruence|exact E].
Qed.

Lemma arrows_head a l : arrows p (a :: l) -> coloured p a.
Proof. intro H. inversion H; assumption. Qed.
Lemma arrows_next a b l : arrows p (a :: b :: l) -> points p a b /\ arrows p (b :: l).
Proof. intro H. inversion H; subst. auto. Qed.
Lemma arrows_split l1 a l2 : arrows p (l1 ++ a :: l2) -> arrows p (a :: l2).
Proof.
  induction l1 as [|b l1 IH]; cbn [app]; [auto|]. intro H. apply IH.
  destruct l1; cbn [app] in *; inversion H; subst; assumption.
Qed.
Lemma arrows_init l1 a l2 : arrows p (l1 ++ a :: l2) -> arrows p (l1 ++ [a]).
Proof.
  induction l1 as [|b l1 IH]; cbn [app]; intro H.
  - constructor. inversion H; assumption.
  - destruct l1 as [|c l1]; cbn [app] in *; inversion H; subst; (constructor; [assumption|assumption|]); exact (IH ltac:(assumption)).
Qed.

Lemma walk_spec rounds : forall a c L, coloured p a -> color_index p (Z.of_nat (fst a)) (Z.of_nat (snd a)) = Ok c -> NoDup L ->
  exists M, walk rounds p (Z.of_nat (fst a)) (Z.of_nat (snd a)) c (map zc L) = Ok (map zc (L ++ M)) /\
    arrows p (a :: M) /\ NoDup (L ++ M) /\
    (length M = rounds <-> exists M', arrows p (a :: M') /\ NoDup (L ++ M') /\ length M' = rounds).
Proof.
  induction rounds as [|rounds IH]; intros a c L Ha Ec HL.
  - exists []. cbn [walk]. rewrite app_nil_r. split; [reflexivity|]. split; [constructor; exact Ha|]. split; [exact HL|].
    split; [|reflexivity]. intros _. exists []. rewrite app_nil_r. split; [constructor; exact Ha|]. split; [exact HL|reflexivity].
  - destruct (step a Ha) as [c0 [d [b [Ec0 [_ [Ed [Eb1 [Eb2 [Hp [Bi Bj]]]]]]]]]]. rewrite Ec in Ec0. injection Ec0 as <-.
    cbn [walk]. rewrite Ed. cbn [bind]. rewrite Eb1, Eb2.
    assert (FAIL : ~ coloured p b \/ In b L -> ~ exists M', arrows p (a :: M') /\ NoDup (L ++ M') /\ length M' = S rounds).
    { intros F [M' [A [N Len]]]. destruct M' as [|b' M']; [discriminate Len|]. apply arrows_next in A. destruct A as [A1 A2].
      assert (b' = b) by (exact (points_fun a b' b Ha A1 Hp)). subst b'.
      destruct F as [F|F]; [apply F, (arrows_head _ _ A2)|]. apply NoDup_remove_2 in N. apply N, in_or_app. left. exact F. }
    assert (STOP : ~ coloured p b \/ In b L -> exists M, Ok (map zc L) = Ok (map zc (L ++ M)) /\
      arrows p (a :: M) /\ NoDup (L ++ M) /\
      (length M = S rounds <-> exists M', arrows p (a :: M') /\ NoDup (L ++ M') /\ length M' = S rounds)).
    { intro F. exists []. rewrite app_nil_r. split; [reflexivity|]. split; [constructor; exact Ha|]. split; [exact HL|].
      split; [discriminate|]. intro K. destruct (FAIL F K). }
    destruct (Qc_eq_dec (aget p (fst b) (snd b) 3) 1) as [E3|N3].
    + rewrite (background b Bi Bj E3). cbn [bind Nat.eqb]. apply STOP. left. intros [_ [_ K]]. exact (K E3).
    + assert (Hb : coloured p b) by (split; [exact Bi|split; [exact Bj|exact N3]]).
      destruct (step b Hb) as [c' [_ [_ [Ec' [N' _]]]]]. rewrite Ec'. cbn [bind]. apply Nat.eqb_neq in N'. rewrite N'.
      change (Z.of_nat (fst b), Z.of_nat (snd b)) with (zc b).
      destruct (existsb (same_cell (zc b)) (map zc L)) eqn:Ex.
      * apply STOP. right. apply existsb_zc, Ex.
      * assert (NL : ~ In b L) by (intro K; apply existsb_zc in K; congruence).
        replace (map zc L ++ [zc b]) with (map zc (L ++ [b])) by (rewrite map_app; reflexivity).
        assert (NDb : NoDup (L ++ [b])).
        { rewrite <- (rev_involutive (L ++ [b])). apply NoDup_rev. rewrite rev_app_distr. cbn.
          constructor; [rewrite <- in_rev; exact NL|apply NoDup_rev, HL]. }
        destruct (IH b c' (L ++ [b]) Hb Ec' NDb) as [M [EM [AM [ND LM]]]]. exists (b :: M).
        rewrite <- app_assoc in EM, ND. cbn [app] in EM, ND. split; [exact EM|]. split; [constructor; assumption|].
        split; [exact ND|]. cbn [length]. split.
        -- intro K. exists (b :: M). cbn [length]. split; [constructor; assumption|]. split; [exact ND|exact K].
        -- intros [M' [A [B D]]]. f_equal. apply LM. destruct M' as [|b' M']; [discriminate D|].
           apply arrows_next in A. destruct A as [A1 A2].
           assert (b' = b) by (exact (points_fun a b' b Ha A1 Hp)). subst b'.
           exists M'. split; [exact A2|]. rewrite <- app_assoc. cbn [app]. split; [exact B|]. injection D as D. exact D.
Qed.

Lemma walkThru_spec a n : coloured p a -> exists M, walkThruSnake p (Z.of_nat (fst a)) (Z.of_nat (snd a)) n = Ok (map zc M) /\
  arrows p (a :: M) /\ NoDup M /\
  (length M = (n - 1)%nat <-> exists M', arrows p (a :: M') /\ NoDup M' /\ length M' = (n - 1)%nat).
Proof.
  intro Ha. destruct (step a Ha) as [c [_ [_ [Ec _]]]]. unfold walkThruSnake. rewrite Ec. cbn [bind].
  exact (walk_spec (n - 1) a c [] Ha Ec (NoDup_nil _)).
Qed.
Lemma in_cells a : In a (cells p) <-> coloured p a.
Proof.
  unfold cells, coloured. rewrite filter_In, negb_true_iff, Qceqb_neq. destruct a as [i j]. cbn [fst snd].
  rewrite in_prod_iff, !in_seq. split; intros [? ?]; repeat split; try tauto; lia.
Qed.
Lemma any_spec n l : Forall (coloured p) l -> exists b, any_snake p n l = Ok b /\
  (b = true <-> exists a M, In a l /\ arrows p (a :: M) /\ NoDup M /\ length (a :: M) = n).
Proof.
  induction l as [|[i j] l IH]; intro H; cbn [any_snake].
  - exists false. split; [reflexivity|]. split; [discriminate|]. intros [a [M [[] _]]].
  - inversion H as [|? ? Ha Hl]; subst. destruct (walkThru_spec (i, j) n Ha) as [M [E [A [N L]]]]. cbn [fst snd] in E.
    rewrite E. cbn [bind]. rewrite map_length. destruct (Nat.eqb_spec (length M + 1) n) as [En|En].
    + exists true. split; [reflexivity|]. split; [|reflexivity]. intros _. exists (i, j), M.
      split; [left; reflexivity|]. split; [exact A|]. split; [exact N|]. cbn [length]. lia.
    + destruct (IH Hl) as [b [Eb Hb]]. exists b. split; [exact Eb|]. rewrite Hb. split.
      * intros [a [M' [I K]]]. exists a, M'. split; [right; exact I|exact K].
      * intros [a [M' [[<-|I] [A' [N' L']]]]].
        -- exfalso. cbn [length] in L'. apply En. assert (K : length M = (n - 1)%nat); [|lia].
           apply L. exists M'. split; [exact A'|]. split; [exact N'|lia].
        -- exists a, M'. repeat split; assumption.
Qed.
Lemma walk_or_loop n : (exists a M, In a (cells p) /\ arrows p (a :: M) /\ NoDup M /\ length (a :: M) = n) <->
  has_snake p n \/ has_loop p (n - 1).
Proof.
  split.
  - intros [a [M [I [A [N L]]]]]. destruct (in_dec (fun x y : nat * nat => ltac:(decide equality; apply Nat.eq_dec)) a M) as [Ia|Na].
    + right. apply in_split in Ia. destruct Ia as [M1 [M2 ->]].
      destruct M2 as [|b M2].
      * exists a, M1. cbn [length] in L. rewrite app_length in L. cbn [length] in *. split; [lia|]. split; [|exact A].
        apply NoDup_remove in N. destruct N as [N1 N2]. rewrite app_nil_r in N1, N2. constructor; assumption.
      * exfalso. assert (A2 := A). change (a :: M1 ++ a :: b :: M2) with ((a :: M1) ++ a :: b :: M2) in A2.
        apply arrows_split in A2. apply arrows_next in A2. destruct A2 as [P2 _].
        destruct M1 as [|b' M1]; cbn [app] in *.
        -- apply arrows_next in A. destruct A as [P1 A]. assert (Ha := arrows_head _ _ A).
           assert (E := points_fun a a b Ha P1 P2). subst b. inversion N as [|? ? N1 _]. apply N1. left. reflexivity.
        -- assert (Ha := arrows_head _ _ A). apply arrows_next in A. destruct A as [P1 A].
           assert (E := points_fun a b' b Ha P1 P2). subst b'. inversion N as [|? ? N1 _]. apply N1.
           apply in_or_app. right. right. left. reflexivity.
    + left. exists (a :: M). split; [exact L|]. split; [constructor; assumption|exact A].
  - intros [[l [L [N A]]]|[a [l [L [N A]]]]].
    + destruct l as [|a M]; [inversion A|]. exists a, M. split; [apply in_cells; exact (arrows_head _ _ A)|].
      split; [exact A|]. split; [inversion N; assumption|exact L].
    + exists a, (l ++ [a]). split; [apply in_cells; exact (arrows_head _ _ A)|]. split; [exact A|]. split.
      * inversion N as [|? ? N1 N2]. rewrite <- (rev_involutive (l ++ [a])). apply NoDup_rev. rewrite rev_app_distr. cbn.
        constructor; [rewrite <- in_rev; exact N1|apply NoDup_rev, N2].
      * cbn [length] in *. rewrite app_length. cbn [length]. lia.
Qed.
Lemma present_spec n : exists b, isSnakePresent p n = Ok b /\ (b = true <-> has_snake p n \/ has_loop p (n - 1)).
Proof.
  unfold isSnakePresent. destruct HO as [HC _]. rewrite HC. cbn [Nat.leb ensure bind].
  destruct (any_spec n (cells p)) as [b [E H]].
  - apply Forall_forall. intros a Ha. apply in_cells, Ha.
  - exists b. split; [exact E|]. rewrite H. apply walk_or_loop.
Qed.
End Walk.

(** arrows change the parity of row + column *)
Lemma points_parity p a b : points p a b -> Nat.even (fst b + snd b) = negb (Nat.even (fst a + snd a)).
Proof.
  intro H. destruct H; cbn [fst snd].
  - rewrite Nat.add_succ_l, Nat.even_succ, <- Nat.negb_even, negb_involutive. reflexivity.
  - rewrite Nat.add_succ_l, Nat.even_succ, <- Nat.negb_even. reflexivity.
  - rewrite Nat.add_succ_r, Nat.even_succ, <- Nat.negb_even. reflexivity.
  - rewrite Nat.add_succ_r, Nat.even_succ, <- Nat.negb_even, negb_involutive. reflexivity.
Qed.
Lemma arrows_parity p l : forall a b, arrows p (a :: l ++ [b]) ->
  Nat.even (fst b + snd b) = xorb (Nat.even (fst a + snd a)) (Nat.even (length l)).
Proof.
  induction l as [|c l IH]; intros a b H; cbn [app] in H; inversion H; subst.
  - match goal with K : points _ _ _ |- _ => rewrite (points_parity _ _ _ K) end. cbn. destruct (Nat.even _); reflexivity.
  - match goal with K : arrows p (c :: _) |- _ => rewrite (IH _ _ K) end.
    match goal with K : points _ _ _ |- _ => rewrite (points_parity _ _ _ K) end.
    cbn [length]. rewrite Nat.even_succ, <- Nat.negb_even. destruct (Nat.even (fst a + snd a)), (Nat.even (length l)); reflexivity.
Qed.
Lemma loop_even p n : has_loop p n -> Nat.even n = true /\ (2 <= n)%nat.
Proof.
  intros [a [l [<- [_ A]]]]. apply arrows_parity in A. cbn [length]. rewrite Nat.even_succ, <- Nat.negb_even.
  destruct (Nat.even (length l)) eqn:E.
  - destruct (Nat.even (fst a + snd a)); discriminate.
  - split; [reflexivity|]. destruct l; [discriminate E|]. cbn [length]. lia.
Qed.
Lemma present_even : forall p n, one_hot_picture p -> framed p -> Nat.even n = true ->
  exists b, isSnakePresent p n = Ok b /\ (b = true <-> has_snake p n).
Proof.
  intros p n HO HF He. destruct (present_spec p HO HF n) as [b [E H]]. exists b. split; [exact E|]. rewrite H.
  split; [|auto]. intros [K|K]; [exact K|]. exfalso. apply loop_even in K. destruct K as [K L].
  destruct n as [|n]; [cbn in L; lia|]. replace (S n - 1)%nat with n in K by lia.
  rewrite Nat.even_succ, <- Nat.negb_even, K in He. discriminate.
Qed.

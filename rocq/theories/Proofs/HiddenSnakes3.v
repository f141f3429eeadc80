(** Proofs about shorten_snakes. *)
From Coq Require Import ZArith Lia.
From Verif Require Import Spec.HiddenSnakesSpec Proofs.Arrays Proofs.Snakes Proofs.HiddenSnakes Proofs.HiddenSnakes2.

Lemma min_of_ok l : l <> [] -> exists m, min_of l = Ok m /\ In m l /\ forall a, In a l -> (m <= a)%nat.
Proof.
  destruct l as [|a l]; [congruence|]. intros _. exists (fold_left Nat.min l a). split; [reflexivity|].
  revert a. induction l as [|b l IH]; intro a; cbn [fold_left].
  - split; [left; reflexivity|]. intros x [<-|[]]. lia.
  - destruct (IH (Nat.min a b)) as [I L]. split.
    + destruct I as [E|I]; [|right; right; exact I]. destruct (Nat.min_dec a b) as [M|M]; rewrite M in E |- *; [left|right; left]; exact E.
    + assert (L0 := L _ (or_introl eq_refl)). intros x [<-|[<-|I2]]; [lia|lia|]. apply L. right. exact I2.
Qed.
Lemma max_of_ok l : l <> [] -> exists m, max_of l = Ok m /\ In m l /\ forall a, In a l -> (a <= m)%nat.
Proof.
  destruct l as [|a l]; [congruence|]. intros _. exists (fold_left Nat.max l a). split; [reflexivity|].
  revert a. induction l as [|b l IH]; intro a; cbn [fold_left].
  - split; [left; reflexivity|]. intros x [<-|[]]. lia.
  - destruct (IH (Nat.max a b)) as [I L]. split.
    + destruct I as [E|I]; [|right; right; exact I]. destruct (Nat.max_dec a b) as [M|M]; rewrite M in E |- *; [left|right; left]; exact E.
    + assert (L0 := L _ (or_introl eq_refl)). intros x [<-|[<-|I2]]; [lia|lia|]. apply L. right. exact I2.
Qed.
Lemma lget_ltab h w f i j : (i < h)%nat -> (j < w)%nat -> lget (ltab h w f) i j = f i j.
Proof.
  intros Hi Hj. unfold lget, ltab. cbn [l_dat]. rewrite (nth_map_seq (fun i => map (f i) (seq 0 w))) by exact Hi.
  apply nth_map_seq, Hj.
Qed.
Lemma clip_lo n lo : (lo < n)%nat -> clip n (Z.of_nat lo - 1) = crop_start n lo.
Proof.
  intro H. unfold clip, crop_start. destruct lo as [|lo].
  - cbn [Nat.eqb]. change (Z.of_nat 0 - 1 <? 0)%Z with true. cbn iota. lia.
  - cbn [Nat.eqb]. replace (Z.of_nat (S lo) - 1 <? 0)%Z with false by (symmetry; apply Z.ltb_ge; lia). lia.
Qed.
Lemma clip_hi n hi : clip n (Z.of_nat hi + 2) = Nat.min n (hi + 2).
Proof. unfold clip. replace (Z.of_nat hi + 2 <? 0)%Z with false by (symmetry; apply Z.ltb_ge; lia). lia. Qed.

Lemma in_labelled N y a : In a (labelled (ltab (l_h y) (l_w y) (fun i j => if (N <? lget y i j)%nat then 0%nat else lget y i j))) <->
  kept_label N y (fst a) (snd a).
Proof.
  destruct a as [i j]. unfold labelled, kept_label. rewrite filter_In, in_prod_iff, !in_seq, negb_true_iff, Nat.eqb_neq. cbn [fst snd ltab l_h l_w].
  split.
  - intros [[Hi Hj] K]. fold (ltab (l_h y) (l_w y) (fun i j => if (N <? lget y i j)%nat then 0%nat else lget y i j)) in K.
    rewrite lget_ltab in K by lia. destruct (Nat.ltb_spec N (lget y i j)); [congruence|]. lia.
  - intros [Hi [Hj K]]. split; [lia|]. fold (ltab (l_h y) (l_w y) (fun i j => if (N <? lget y i j)%nat then 0%nat else lget y i j)).
    rewrite lget_ltab by lia. destruct (Nat.ltb_spec N (lget y i j)); lia.
Qed.

Lemma shorten_ok : forall (N : nat) (x : arr3) (y : lab2),
  a_h x = l_h y -> a_w x = l_w y -> (exists i j, kept_label N y i j) ->
  exists i0 i1 j0 j1 x' y', row_range N y i0 i1 /\ col_range N y j0 j1 /\
    shorten_snake N x y = Ok (x', y') /\
    a_h x' = (Nat.min (l_h y) (i1 + 2) - crop_start (l_h y) i0)%nat /\ a_w x' = (Nat.min (l_w y) (j1 + 2) - crop_start (l_w y) j0)%nat /\
    a_c x' = a_c x /\ l_h y' = a_h x' /\ l_w y' = a_w x' /\
    forall i j, (i < a_h x')%nat -> (j < a_w x')%nat ->
      lget y' i j = erased_label N y (crop_start (l_h y) i0 + i) (crop_start (l_w y) j0 + j) /\
      forall c, (c < a_c x)%nat -> aget x' i j c = erased_pixel N x y (crop_start (l_h y) i0 + i) (crop_start (l_w y) j0 + j) c.
Proof.
  intros N x y Eh Ew [i [j K]]. unfold shorten_snake. rewrite Eh, Ew, !Nat.eqb_refl. cbn [andb ensure bind].
  assert (K0 := K). destruct K0 as [Ki [Kj _]].
  replace (l_h y * l_w y =? 0)%nat with false by (symmetry; apply Nat.eqb_neq; nia). cbn [negb ensure bind].
  set (L := labelled _). assert (IL : forall a, In a L <-> kept_label N y (fst a) (snd a)) by (intro a; apply in_labelled).
  assert (IN : In (i, j) L) by (apply IL; exact K).
  assert (N1 : map fst L <> []) by (destruct L; [destruct IN|discriminate]).
  assert (N2 : map snd L <> []) by (destruct L; [destruct IN|discriminate]).
  destruct (min_of_ok _ N1) as [i0 [-> [I0 B0]]]. destruct (max_of_ok _ N1) as [i1 [-> [I1 B1]]].
  destruct (min_of_ok _ N2) as [j0 [-> [J0 D0]]]. destruct (max_of_ok _ N2) as [j1 [-> [J1 D1]]]. cbn [bind].
  assert (IR : forall i', In i' (map fst L) <-> exists j', kept_label N y i' j').
  { intro i'. rewrite in_map_iff. split; [intros [[a b] [<- H]]; exists b; apply IL in H; exact H|].
    intros [j' H]. exists (i', j'). split; [reflexivity|apply IL; exact H]. }
  assert (JR : forall j', In j' (map snd L) <-> exists i', kept_label N y i' j').
  { intro j'. rewrite in_map_iff. split; [intros [[a b] [<- H]]; exists a; apply IL in H; exact H|].
    intros [i' H]. exists (i', j'). split; [reflexivity|apply IL; exact H]. }
  assert (RR : row_range N y i0 i1).
  { split; [apply IR, I0|]. split; [apply IR, I1|]. intros a b H. split; [apply B0|apply B1]; apply IR; exists b; exact H. }
  assert (CR : col_range N y j0 j1).
  { split; [apply JR, J0|]. split; [apply JR, J1|]. intros a b H. split; [apply D0|apply D1]; apply JR; exists a; exact H. }
  assert (L0 : (i0 < l_h y)%nat) by (destruct RR as [[b [H _]] _]; exact H).
  assert (M0 : (j0 < l_w y)%nat) by (destruct CR as [[b [_ [H _]]] _]; exact H).
  exists i0, i1, j0, j1. eexists. eexists. split; [exact RR|]. split; [exact CR|]. split; [reflexivity|].
  set (x2 := atab _ _ _ _). set (y2 := ltab _ _ _).
  assert (X2 : a_h x2 = l_h y /\ a_w x2 = l_w y /\ a_c x2 = a_c x) by (split; [|split]; reflexivity).
  assert (Y2 : l_h y2 = l_h y /\ l_w y2 = l_w y) by (split; reflexivity).
  assert (GX : forall i j c, (i < l_h y)%nat -> (j < l_w y)%nat -> (c < a_c x)%nat -> aget x2 i j c = erased_pixel N x y i j c)
    by (intros; unfold x2; apply aget_atab; assumption).
  assert (GY : forall i j, (i < l_h y)%nat -> (j < l_w y)%nat -> lget y2 i j = erased_label N y i j)
    by (intros; unfold y2; apply lget_ltab; assumption).
  clearbody x2 y2. destruct X2 as [X2h [X2w X2c]]. destruct Y2 as [Y2h Y2w].
  assert (CS : forall n lo hi, (lo < n)%nat -> slice_len n (Z.of_nat lo - 1) (Z.of_nat hi + 2) = (Nat.min n (hi + 2) - crop_start n lo)%nat).
  { intros n lo hi H. unfold slice_len. rewrite clip_hi, clip_lo by exact H. reflexivity. }
  assert (AH : forall i0 i1 j0 j1, a_h (acrop x2 i0 i1 j0 j1) = slice_len (a_h x2) i0 i1 /\ a_w (acrop x2 i0 i1 j0 j1) = slice_len (a_w x2) j0 j1 /\
     a_c (acrop x2 i0 i1 j0 j1) = a_c x2) by (intros; split; [|split]; reflexivity).
  assert (LH : forall i0 i1 j0 j1, l_h (lcrop y2 i0 i1 j0 j1) = slice_len (l_h y2) i0 i1 /\ l_w (lcrop y2 i0 i1 j0 j1) = slice_len (l_w y2) j0 j1)
    by (intros; split; reflexivity).
  destruct (AH (Z.of_nat i0 - 1) (Z.of_nat i1 + 2) (Z.of_nat j0 - 1) (Z.of_nat j1 + 2))%Z as [A1 [A2 A3]].
  destruct (LH (Z.of_nat i0 - 1) (Z.of_nat i1 + 2) (Z.of_nat j0 - 1) (Z.of_nat j1 + 2))%Z as [A4 A5].
  rewrite A1, A2, A3, A4, A5, X2h, X2w, X2c, Y2h, Y2w, !CS by assumption. clear A1 A2 A3 A4 A5 AH LH.
  split; [reflexivity|]. split; [reflexivity|]. split; [reflexivity|]. split; [reflexivity|]. split; [reflexivity|].
  intros a b Ha Hb. split.
  - unfold lcrop. rewrite Y2h, Y2w, !CS, !clip_lo by assumption. rewrite lget_ltab by assumption. apply GY; lia.
  - intros c Hc. unfold acrop. rewrite X2h, X2w, X2c, !CS, !clip_lo by assumption. rewrite aget_atab by assumption. apply GX; lia.
Qed.
Lemma shorten_errors : forall (N : nat) (x : arr3) (y : lab2),
  (a_h x <> l_h y \/ a_w x <> l_w y -> shorten_snake N x y = Err AssertionError) /\
  (a_h x = l_h y -> a_w x = l_w y -> (l_h y * l_w y)%nat = 0%nat -> shorten_snake N x y = Err IndexError) /\
  (a_h x = l_h y -> a_w x = l_w y -> (0 < l_h y * l_w y)%nat -> ~ (exists i j, kept_label N y i j) -> shorten_snake N x y = Err ValueError).
Proof.
  intros N x y. unfold shorten_snake. split; [|split].
  - intro H. destruct (Nat.eqb_spec (a_h x) (l_h y)), (Nat.eqb_spec (a_w x) (l_w y)); cbn [andb ensure bind]; tauto.
  - intros -> -> H. rewrite !Nat.eqb_refl, H. reflexivity.
  - intros -> -> H K. rewrite !Nat.eqb_refl. cbn [andb ensure bind].
    replace (l_h y * l_w y =? 0)%nat with false by (symmetry; apply Nat.eqb_neq; lia). cbn [negb ensure bind].
    set (L := labelled _). assert (IL : forall a, In a L <-> kept_label N y (fst a) (snd a)) by (intro a; apply in_labelled).
    destruct L as [|[i j] L]; [reflexivity|]. exfalso. apply K. exists i, j. apply (IL (i, j)). left. reflexivity.
Qed.

(** a snake inside the picture: the crop holds exactly the kept cells, with a margin of one background pixel *)
Lemma shorten_inside : forall (N : nat) (x : arr3) (y : lab2),
  a_h x = l_h y -> a_w x = l_w y -> (exists i j, kept_label N y i j) ->
  (forall i j, (i < l_h y)%nat -> (j < l_w y)%nat -> i = 0%nat \/ j = 0%nat \/ S i = l_h y \/ S j = l_w y -> lget y i j = 0%nat) ->
  (forall i j c, (i < l_h y)%nat -> (j < l_w y)%nat -> (c < a_c x)%nat -> lget y i j = 0%nat -> aget x i j c = aget x 0 0 c) ->
  exists x' y' di dj, shorten_snake N x y = Ok (x', y') /\ a_c x' = a_c x /\ l_h y' = a_h x' /\ l_w y' = a_w x' /\
    (forall i j, kept_label N y i j -> (di < i)%nat /\ (dj < j)%nat /\ (S (i - di) < a_h x')%nat /\ (S (j - dj) < a_w x')%nat /\
       lget y' (i - di) (j - dj) = lget y i j /\ forall c, (c < a_c x)%nat -> aget x' (i - di) (j - dj) c = aget x i j c) /\
    (forall i j, (i < a_h x')%nat -> (j < a_w x')%nat -> ~ kept_label N y (di + i) (dj + j) ->
       lget y' i j = 0%nat /\ forall c, (c < a_c x)%nat -> aget x' i j c = aget x 0 0 c) /\
    (forall i j, (i < a_h x')%nat -> (j < a_w x')%nat -> i = 0%nat \/ j = 0%nat \/ S i = a_h x' \/ S j = a_w x' -> ~ kept_label N y (di + i) (dj + j)).
Proof.
  intros N x y Eh Ew HK HB HU.
  destruct (shorten_ok N x y Eh Ew HK) as [i0 [i1 [j0 [j1 [x' [y' [RR [CR [E [Ha [Hw [Hc [Lh [Lw G]]]]]]]]]]]]]].
  assert (IN : forall i j, kept_label N y i j -> (0 < i)%nat /\ (0 < j)%nat /\ (S i < l_h y)%nat /\ (S j < l_w y)%nat).
  { intros i j [Hi [Hj K]]. assert (B := HB i j Hi Hj).
    assert (NB : ~ (i = 0 \/ j = 0 \/ S i = l_h y \/ S j = l_w y)%nat) by (intro X; specialize (B X); lia). lia. }
  destruct RR as [[b0 R0] [[b1 R1] RR]]. destruct CR as [[a0 C0] [[a1 C1] CR]].
  apply IN in R0, R1, C0, C1.
  assert (S0 : crop_start (l_h y) i0 = (i0 - 1)%nat) by (unfold crop_start; destruct (Nat.eqb_spec i0 0); lia).
  assert (S1 : crop_start (l_w y) j0 = (j0 - 1)%nat) by (unfold crop_start; destruct (Nat.eqb_spec j0 0); lia).
  rewrite S0 in *. rewrite S1 in *.
  exists x', y', (i0 - 1)%nat, (j0 - 1)%nat. split; [exact E|]. split; [exact Hc|]. split; [exact Lh|]. split; [exact Lw|].
  split; [|split].
  - intros i j K. assert (I := IN i j K). assert (Rij := RR i j K). assert (Cij := CR i j K).
    split; [lia|]. split; [lia|]. split; [lia|]. split; [lia|].
    destruct (G (i - (i0 - 1)) (j - (j0 - 1)))%nat as [G1 G2]; [lia|lia|].
    replace (i0 - 1 + (i - (i0 - 1)))%nat with i in * by lia. replace (j0 - 1 + (j - (j0 - 1)))%nat with j in * by lia.
    destruct K as [_ [_ K]]. split.
    + rewrite G1. unfold erased_label. destruct (Nat.ltb_spec N (lget y i j)); [lia|reflexivity].
    + intros c Hc'. rewrite (G2 c Hc'). unfold erased_pixel. destruct (Nat.ltb_spec N (lget y i j)); [lia|reflexivity].
  - intros i j Hi Hj NK. destruct (G i j Hi Hj) as [G1 G2]. rewrite Ha in Hi. rewrite Hw in Hj.
    assert (L0 : forall a b, (a < l_h y)%nat -> (b < l_w y)%nat -> ~ kept_label N y a b -> (N < lget y a b \/ lget y a b = 0)%nat).
    { intros a b H1 H2 H3. destruct (lget y a b) as [|k] eqn:El; [auto|]. left.
      destruct (le_lt_dec (S k) N) as [L|L]; [|exact L]. exfalso. apply H3. split; [exact H1|]. split; [exact H2|]. lia. }
    specialize (L0 (i0 - 1 + i) (j0 - 1 + j))%nat. specialize (L0 ltac:(lia) ltac:(lia) NK). split.
    + rewrite G1. unfold erased_label. destruct (Nat.ltb_spec N (lget y (i0 - 1 + i) (j0 - 1 + j))); [reflexivity|lia].
    + intros c Hc'. rewrite (G2 c Hc'). unfold erased_pixel. destruct (Nat.ltb_spec N (lget y (i0 - 1 + i) (j0 - 1 + j))); [reflexivity|].
      apply HU; lia.
  - intros i j Hi Hj B K. assert (Rij := RR _ _ K). assert (Cij := CR _ _ K). lia.
Qed.
(** touching the first row: at most one row is left, and none unless the last row is within the margin *)
Lemma shorten_top : forall (N : nat) (x : arr3) (y : lab2) (x' : arr3) (y' : lab2),
  a_h x = l_h y -> a_w x = l_w y -> shorten_snake N x y = Ok (x', y') -> (exists j, kept_label N y 0 j) ->
  (a_h x' <= 1)%nat /\ ((forall i j, kept_label N y i j -> (i + 2 < l_h y)%nat) -> a_h x' = 0%nat).
Proof.
  intros N x y x' y' Eh Ew E [j K].
  destruct (shorten_ok N x y Eh Ew (ex_intro _ 0%nat (ex_intro _ j K))) as [i0 [i1 [j0 [j1 [x2 [y2 [RR [CR [E2 [Ha _]]]]]]]]]].
  assert (x2 = x') by congruence. subst x2. destruct RR as [R0 [[b R1] RR]]. assert (i0 = 0)%nat by (specialize (RR _ _ K); lia). subst i0.
  unfold crop_start in Ha. cbn [Nat.eqb] in Ha. split; [lia|]. intro H. specialize (H _ _ R1). lia.
Qed.
